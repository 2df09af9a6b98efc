(** Averages of independent draws: Chebyshev's inequality, also for averages with weights (C86). *)
From Coq Require Import Reals Lra Lia.
From Verif Require Import M_Base M_Num L_Num M_XReal M_Stats L_PMC S_Stats L_Stats L_Distance L_PosDef S_Law P_Law L_Law L_Gen S_Consist.
Open Scope R_scope.

Lemma total_minus {A} (l : list A) (f g : A -> R) : total (map (fun a => f a - g a) l) = total (map f l) - total (map g l).
Proof. induction l as [|a l IH]; cbn [map]; [unfold total; cbn; ring|]. rewrite !total_cons, IH. ring. Qed.
Lemma total_const_map {A} (l : list A) c : total (map (fun _ => c) l) = INR (length l) * c.
Proof. induction l as [|a l IH]; [unfold total; cbn; ring|]. cbn [map length]. rewrite total_cons, IH, S_INR. ring. Qed.

Section LLN.
Variable A : Type.
Variable outs : list A.
Variable p : A -> R.
Hypothesis law : Law outs p.
Notation expect := (expect outs p).
Notation mean := (mean outs p).
Notation prob := (prob outs p).
Notation variance := (variance outs p).

Lemma prob_mean k : forall F, prob k F = mean k (fun l => if F l then 1 else 0).
Proof. induction k as [|k IH]; intros F; cbn [S_Law.prob S_Law.mean]; [reflexivity|]. apply expect_ext. intros a _. apply IH. Qed.
(** independent centred terms: the mean square of a sum is the sum of the mean squares *)
Lemma mean_sum (f : A -> R) : expect f = 0 -> forall n, mean n (fun l => total (map f l)) = 0.
Proof.
  intros Hf. induction n as [|n IH]; cbn [S_Law.mean]; [reflexivity|]. rewrite (expect_ext _ _ _ _ (fun a => f a)); [exact Hf|]. intros a _.
  rewrite (mean_ext _ _ _ _ _ (fun l => f a + total (map f l))) by (intros; cbn [map]; apply total_cons). rewrite (mean_plus _ outs p), IH, (mean_const _ outs p law). ring.
Qed.
Lemma mean_square (f : A -> R) : expect f = 0 -> forall n, mean n (fun l => total (map f l) ^ 2) = INR n * expect (fun a => f a ^ 2).
Proof.
  intros Hf. induction n as [|n IH]; cbn [S_Law.mean]; [cbn; ring|]. rewrite (expect_ext _ _ _ _ (fun a => f a ^ 2 + INR n * expect (fun a => f a ^ 2))).
  - rewrite expect_plus, (expect_const _ _ _ _ law), S_INR. ring.
  - intros a _. rewrite (mean_ext _ _ _ _ _ (fun l => f a ^ 2 + (2 * f a * total (map f l) + total (map f l) ^ 2))) by (intros; cbn [map]; rewrite total_cons; ring).
    rewrite !(mean_plus _ outs p), (mean_scale _ outs p), (mean_sum f Hf), IH, (mean_const _ outs p law). ring.
Qed.
Lemma chebyshev (f : A -> R) n c : expect f = 0 -> 0 < c -> prob n (fun l => if Rlt_dec c (Rabs (total (map f l))) then true else false) <= INR n * expect (fun a => f a ^ 2) / c ^ 2.
Proof.
  intros Hf Hc. assert (Hc2 : 0 < c ^ 2) by (apply pow_lt; exact Hc). apply Rmult_le_reg_l with (c ^ 2); [exact Hc2|]. replace (c ^ 2 * (INR n * expect (fun a => f a ^ 2) / c ^ 2)) with (INR n * expect (fun a => f a ^ 2)) by (field; lra).
  rewrite <- (mean_square f Hf), prob_mean, <- (mean_scale _ outs p). apply (mean_le _ outs p law). intros l _. destruct (Rlt_dec c (Rabs (total (map f l)))) as [H|H].
  - rewrite Rmult_1_r, <- (pow2_abs (total _)). apply pow_incr. lra.
  - rewrite Rmult_0_r. apply pow2_ge_0.
Qed.
Lemma centre f : expect (fun a => f a - expect f) = 0.
Proof. rewrite (expect_ext _ _ _ _ (fun a => f a + - expect f)) by (intros; ring). rewrite expect_plus, (expect_const _ _ _ _ law). ring. Qed.
Lemma prob_le k F G : (forall l, F l = true -> G l = true) -> prob k F <= prob k G.
Proof. intros H. rewrite !prob_mean. apply (mean_le _ outs p law). intros l _. destruct (F l) eqn:E; [rewrite (H l E); lra|]. destruct (G l); lra. Qed.
Lemma prob_or k F G : prob k (fun l => F l || G l) <= prob k F + prob k G.
Proof. rewrite !prob_mean, <- (mean_plus _ outs p). apply (mean_le _ outs p law). intros l _. destruct (F l), (G l); cbn [orb]; lra. Qed.
(** the average of n independent draws *)
Theorem average_law (f : A -> R) n e : (0 < n)%nat -> 0 < e -> prob n (fun l => far e (average (map f l)) (expect f)) <= variance f / (INR n * e ^ 2).
Proof.
  intros Hn He. assert (HN : 0 < INR n) by (apply lt_0_INR; lia). assert (He2 : 0 < e ^ 2) by (apply pow_lt; exact He).
  eapply Rle_trans; [|apply Rle_trans with (INR n * expect (fun a => (f a - expect f) ^ 2) / (INR n * e) ^ 2)]; [|apply (chebyshev (fun a => f a - expect f) n (INR n * e) (centre f)); apply Rmult_lt_0_compat; assumption|].
  - right. apply prob_ext. intros l Hl. unfold far, average. rewrite map_length, Hl, total_minus, total_const_map, Hl.
    assert (E : Rabs (total (map f l) - INR n * expect f) = INR n * Rabs (total (map f l) / INR n - expect f)).
    { replace (total (map f l) - INR n * expect f) with (INR n * (total (map f l) / INR n - expect f)) by (field; lra). rewrite Rabs_mult, (Rabs_right (INR n)) by lra. reflexivity. }
    rewrite E. destruct (Rlt_dec e _) as [H|H], (Rlt_dec (INR n * e) _) as [H'|H']; try reflexivity; exfalso; [apply H', Rmult_lt_compat_l; assumption|apply H, Rmult_lt_reg_l with (INR n); assumption].
  - right. unfold variance. field. split; lra.
Qed.
(** the average with positive weights *)
Theorem weighted_law (u f : A -> R) n e m : (0 < n)%nat -> 0 < e -> (forall a, 0 < u a) -> 0 < expect u -> m = expect (fun a => u a * f a) / expect u ->
  prob n (fun l => far e (total (map (fun a => u a * f a) l) / total (map u l)) m) <= 4 * (variance u + expect (fun a => (u a * (f a - m)) ^ 2) / e ^ 2) / (INR n * expect u ^ 2).
Proof.
  intros Hn He Hu HU Hm. assert (HN : 0 < INR n) by (apply lt_0_INR; lia). set (U := expect u) in *. set (g := fun a => u a * (f a - m)).
  assert (Hg : expect g = 0).
  { unfold g. rewrite (expect_ext _ _ _ _ (fun a => u a * f a + - m * u a)) by (intros; ring). rewrite expect_plus, expect_scale. fold U. rewrite Hm. field. lra. }
  pose (c1 := INR n * U / 2). pose (c2 := e * (INR n * U / 2)). assert (H1 : 0 < c1) by (unfold c1; apply Rdiv_lt_0_compat; [apply Rmult_lt_0_compat; assumption|lra]). assert (H2 : 0 < c2) by (unfold c2; apply Rmult_lt_0_compat; assumption).
  apply Rle_trans with (prob n (fun l => (if Rlt_dec c1 (Rabs (total (map (fun a => u a - U) l))) then true else false) || (if Rlt_dec c2 (Rabs (total (map g l))) then true else false))).
  - apply Rle_trans with (prob n (fun l => (length l =? n)%nat && far e (total (map (fun a => u a * f a) l) / total (map u l)) m)); [right; apply prob_ext; intros l ->; rewrite Nat.eqb_refl; reflexivity|].
    apply prob_le. intros l Hl. apply andb_true_iff in Hl. destruct Hl as [Hl Hf]. apply Nat.eqb_eq in Hl. unfold far in Hf. destruct (Rlt_dec e _) as [Hlt|]; [|discriminate]. clear Hf.
    destruct (Rlt_dec c1 _) as [|N1]; [reflexivity|]. destruct (Rlt_dec c2 _) as [|N2]; [reflexivity|]. exfalso.
    assert (Sp : c1 <= total (map u l)).
    { rewrite total_minus, total_const_map, Hl in N1. apply Rnot_lt_le in N1. assert (X : - c1 <= total (map u l) - INR n * U) by (pose proof (Rle_abs (- (total (map u l) - INR n * U))) as Y; rewrite Rabs_Ropp in Y; lra). unfold c1 in *. lra. }
    set (S := total (map u l)) in *. assert (S0 : 0 < S) by lra.
    assert (E : total (map g l) = S * (total (map (fun a => u a * f a) l) / S - m)).
    { unfold g. rewrite (total_ext _ (fun a => u a * f a - m * u a)) by (intros; ring). rewrite total_minus, total_scale. fold S. field. lra. }
    apply N2. rewrite E, Rabs_mult, (Rabs_right S) by lra. unfold c2. fold c1. rewrite (Rmult_comm e). apply Rle_lt_trans with (S * e); [apply Rmult_le_compat_r; lra|]. apply Rmult_lt_compat_l; assumption.
  - eapply Rle_trans; [apply prob_or|]. eapply Rle_trans; [apply Rplus_le_compat; [apply (chebyshev (fun a => u a - U) n c1 (centre u) H1)|apply (chebyshev g n c2 Hg H2)]|].
    right. unfold variance, c1, c2. fold U. change (fun a => (u a * (f a - m)) ^ 2) with (fun a => g a ^ 2). field. split; [lra|]. split; lra.
Qed.
End LLN.
