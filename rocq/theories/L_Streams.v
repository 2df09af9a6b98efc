(** Sums over independent streams of draws (C93). *)
From Coq Require Import Reals Lra Lia.
From Verif Require Import M_Base M_Num L_Num M_XReal M_Stats L_PMC S_Stats L_Stats L_Distance L_PosDef S_Law P_Law L_Law L_Gen S_Anneal L_Anneal.
Open Scope R_scope.

Section Streams.
Variable A : Type.
Variable outs : list A.
Variable p : A -> R.
Hypothesis law : Law outs p.
Variable k : nat.
Notation mean := (mean outs p k).
Notation gens m := (gens outs p m k).
Lemma gens_plus m : forall F G, gens m (fun ls => F ls + G ls) = gens m F + gens m G.
Proof. induction m as [|m IH]; intros F G; cbn [S_Anneal.gens]; [reflexivity|]. rewrite <- (mean_plus _ outs p). apply mean_ext. intros l _. apply IH. Qed.
Lemma gens_scale m c : forall F, gens m (fun ls => c * F ls) = c * gens m F.
Proof. induction m as [|m IH]; intros F; cbn [S_Anneal.gens]; [reflexivity|]. rewrite <- (mean_scale _ outs p). apply mean_ext. intros l _. apply IH. Qed.
Lemma gens_const m c : gens m (fun _ => c) = c.
Proof. induction m as [|m IH]; cbn [S_Anneal.gens]; [reflexivity|]. rewrite (mean_ext _ _ _ _ _ (fun _ => c)) by (intros; apply IH). apply (mean_const _ outs p law). Qed.
Lemma gens_le m : forall F G, (forall ls, length ls = m -> F ls <= G ls) -> gens m F <= gens m G.
Proof. induction m as [|m IH]; intros F G H; cbn [S_Anneal.gens]; [apply H; reflexivity|]. apply (mean_le _ outs p law). intros l _. apply IH. intros ls Hl. apply H. cbn. lia. Qed.
(** one quantity per stream, added up *)
Fixpoint sums (gs : list (list A -> R)) (ls : list (list A)) : R := match gs, ls with g :: gs', l :: ls' => g l + sums gs' ls' | _, _ => 0 end.
Lemma gens_sum gs : gens (length gs) (sums gs) = total (map mean gs).
Proof.
  induction gs as [|g gs IH]; [reflexivity|]. cbn [length S_Anneal.gens map sums]. rewrite total_cons, <- IH. rewrite (mean_ext _ _ _ _ _ (fun l => g l + gens (length gs) (sums gs))).
  - rewrite (mean_plus _ outs p), (mean_const _ outs p law). reflexivity.
  - intros l _. rewrite gens_plus, gens_const. reflexivity.
Qed.
Lemma gens_square gs : gens (length gs) (fun ls => sums gs ls ^ 2) <= total (map (fun g => mean (fun l => g l ^ 2)) gs) + total (map (fun g => Rabs (mean g)) gs) ^ 2.
Proof.
  induction gs as [|g gs IH]; [cbn; unfold total; cbn; lra|]. cbn [length S_Anneal.gens map sums]. rewrite !total_cons. set (T := total (map (fun g => Rabs (mean g)) gs)) in *. set (Q := total (map (fun g => mean (fun l => g l ^ 2)) gs)) in *. set (E2 := gens (length gs) (fun ls => sums gs ls ^ 2)) in *.
  rewrite (mean_ext _ _ _ _ _ (fun l => g l ^ 2 + (2 * total (map mean gs) * g l + E2))).
  - rewrite !(mean_plus _ outs p), (mean_scale _ outs p), (mean_const _ outs p law).
    assert (B : Rabs (total (map mean gs)) <= T). { unfold T. clear. induction gs as [|h gs IH]; cbn [map]; [unfold total; cbn; rewrite Rabs_R0; lra|]. rewrite !total_cons. eapply Rle_trans; [apply Rabs_triang|]. lra. }
    assert (P : total (map mean gs) * mean g <= T * Rabs (mean g)). { eapply Rle_trans; [apply Rle_abs|]. rewrite Rabs_mult. apply Rmult_le_compat_r; [apply Rabs_pos|exact B]. }
    pose proof (pow2_ge_0 (Rabs (mean g))). replace ((Rabs (mean g) + T) ^ 2) with (Rabs (mean g) ^ 2 + 2 * (T * Rabs (mean g)) + T ^ 2) by ring. lra.
  - intros l _. rewrite (gens_ext _ _ _ _ _ _ (fun ls => g l ^ 2 + (2 * g l * sums gs ls + sums gs ls ^ 2))) by (intros; ring). rewrite !gens_plus, gens_scale, gens_const, gens_sum. fold E2. ring.
Qed.
(** the chance that the sum is large, and the chance that some stream fails *)
Lemma gens_far gs d : 0 < d -> gens (length gs) (fun ls => if Rlt_dec d (Rabs (sums gs ls)) then 1 else 0) <= (total (map (fun g => mean (fun l => g l ^ 2)) gs) + total (map (fun g => Rabs (mean g)) gs) ^ 2) / d ^ 2.
Proof.
  intros Hd. assert (D2 : 0 < d ^ 2) by (apply pow_lt; exact Hd). apply Rmult_le_reg_l with (d ^ 2); [exact D2|]. match goal with |- _ <= ?r => replace r with (total (map (fun g => mean (fun l => g l ^ 2)) gs) + total (map (fun g => Rabs (mean g)) gs) ^ 2) by (field; lra) end.
  eapply Rle_trans; [|apply gens_square]. rewrite <- gens_scale. apply gens_le. intros ls _. destruct (Rlt_dec d _) as [H|H]; [rewrite Rmult_1_r, <- (pow2_abs (sums gs ls)); apply pow_incr; lra|]. rewrite Rmult_0_r. apply pow2_ge_0.
Qed.
Fixpoint some_fails (bs : list (list A -> bool)) (ls : list (list A)) : bool := match bs, ls with b :: bs', l :: ls' => negb (b l) || some_fails bs' ls' | _, _ => false end.
Lemma gens_fails bs : gens (length bs) (fun ls => if some_fails bs ls then 1 else 0) <= total (map (fun b : list A -> bool => 1 - mean (fun l => if b l then 1 else 0)) bs).
Proof.
  induction bs as [|b bs IH]; [cbn; unfold total; cbn; lra|]. cbn [length S_Anneal.gens map some_fails]. rewrite total_cons.
  apply Rle_trans with (mean (fun l => (1 + -1 * (if b l then 1 else 0)) + gens (length bs) (fun ls => if some_fails bs ls then 1 else 0))).
  - apply (mean_le _ outs p law). intros l _. rewrite <- (gens_const (length bs) (1 + -1 * (if b l then 1 else 0))), <- gens_plus. apply gens_le. intros ls _. destruct (b l); cbn [negb orb]; destruct (some_fails bs ls); lra.
  - rewrite !(mean_plus _ outs p), (mean_scale _ outs p), !(mean_const _ outs p law). lra.
Qed.
(** streams by number *)
Lemma sums_nth (G : nat -> list A -> R) n : forall ls, length ls = n -> sums (map G (seq 0 n)) ls = total (map (fun i => G i (nth i ls [])) (seq 0 n)).
Proof.
  revert G. induction n as [|n IH]; intros G [|l ls] H; try discriminate; [reflexivity|]. cbn [seq map sums nth]. rewrite total_cons, <- !seq_shift, !map_map. f_equal. rewrite (IH (fun i => G (S i))) by (cbn in H; lia). reflexivity.
Qed.
Lemma fails_nth (G : nat -> list A -> bool) n : forall ls, length ls = n -> some_fails (map G (seq 0 n)) ls = existsb (fun i => negb (G i (nth i ls []))) (seq 0 n).
Proof.
  revert G. induction n as [|n IH]; intros G [|l ls] H; try discriminate; [reflexivity|]. cbn [seq map some_fails existsb nth]. f_equal. rewrite <- !seq_shift, !map_map, (IH (fun i => G (S i))) by (cbn in H; lia). clear.
  induction (seq 0 n) as [|i is_ IH]; [reflexivity|]. cbn [map existsb nth]. rewrite IH. reflexivity.
Qed.
End Streams.

(** ** A weighted sum of one quantity per stream *)
Lemma cv_total {I} (u : I -> nat -> R) (v : I -> R) l : (forall i, In i l -> Un_cv (u i) (v i)) -> Un_cv (fun k => total (map (fun i => u i k) l)) (total (map v l)).
Proof.
  induction l as [|i l IH]; intros H; [exact (cv_const 0)|]. apply (cv_ext (fun k => u i k + total (map (fun i => u i k) l))); [intros; cbn [map]; rewrite total_cons; reflexivity|]. cbn [map]. rewrite total_cons. apply CV_plus; [apply H; left; reflexivity|apply IH; intros; apply H; right; assumption].
Qed.
Lemma cv_bounded (u : nat -> R) v B : Un_cv u v -> (forall k, Rabs (u k) <= B) -> Rabs v <= B.
Proof.
  intros H Hb. apply Rnot_lt_le. intros N. destruct (H (Rabs v - B) ltac:(lra)) as (K & HK). specialize (HK K (le_n K)). unfold R_dist in HK. specialize (Hb K). pose proof (Rabs_triang_inv v (u K)). rewrite Rabs_minus_sym in HK. lra.
Qed.
Section Quantity.
Variables A X : Type.
Variable outs : list A.
Variable p : A -> R.
Hypothesis law : Law outs p.
Variable n : nat.
(** what stream i gives when k draws are available *)
Variable W : nat -> nat -> list A -> option X.
Variable f : X -> R.
Variable B : R.
Hypothesis B_nonneg : 0 <= B.
Hypothesis bounded : forall x, Rabs (f x) <= B.
Variable M : nat -> R.
Definition value (o : option X) : R := match o with Some x => f x | None => 0 end.
Definition there (o : option X) : bool := match o with Some _ => true | None => false end.
Hypothesis tends : forall i, (i < n)%nat -> Un_cv (fun k => mean outs p k (fun l => value (W i k l))) (M i).
Hypothesis proper : forall i, (i < n)%nat -> Un_cv (fun k => mean outs p k (fun l => if there (W i k l) then 1 else 0)) 1.
Variable w : nat -> R.
Definition astray (d : R) (k : nat) (ls : list (list A)) : bool :=
  existsb (fun i => negb (there (W i k (nth i ls [])))) (seq 0 n) || (if Rlt_dec d (Rabs (total (map (fun i => w i * value (W i k (nth i ls []))) (seq 0 n)) - total (map (fun i => w i * M i) (seq 0 n)))) then true else false).
Theorem streams_law : forall d eta, 0 < d -> 0 < eta -> exists K, forall k, (K <= k)%nat ->
  gens outs p n k (fun ls => if astray d k ls then 1 else 0) <= 4 * B ^ 2 * total (map (fun i => w i ^ 2) (seq 0 n)) / d ^ 2 + eta.
Proof.
  intros d eta Hd He. assert (D2 : 0 < d ^ 2) by (apply pow_lt; exact Hd).
  pose (G := fun k i l => w i * (value (W i k l) - M i)). pose (T := fun k i l => there (W i k l)).
  assert (Vb : forall o, Rabs (value o) <= B) by (intros [x|]; cbn; [apply bounded|rewrite Rabs_R0; exact B_nonneg]).
  assert (Mb : forall i, (i < n)%nat -> Rabs (M i) <= B).
  { intros i Hi. apply (cv_bounded _ _ _ (tends i Hi)). intros k. rewrite <- (mean_const _ outs p law k B). apply (mean_abs _ outs p law). intros l _. apply Vb. }
  assert (C1 : Un_cv (fun k => total (map (fun i => Rabs (mean outs p k (G k i))) (seq 0 n)) ^ 2 / d ^ 2 + total (map (fun i => 1 - mean outs p k (fun l => if T k i l then 1 else 0)) (seq 0 n))) 0).
  { assert (Z0 : 0 / d ^ 2 + total (map (fun i => 1 - 1) (seq 0 n)) = 0) by (rewrite (total_ext _ (fun i => 0 * INR i)) by (intros; ring); rewrite total_scale; field; lra). match goal with |- Un_cv ?u _ => cut (Un_cv u (0 / d ^ 2 + total (map (fun i => 1 - 1) (seq 0 n)))); [rewrite Z0; exact (fun H => H)|] end. apply CV_plus.
    - unfold Rdiv. apply CV_mult; [|apply cv_const]. assert (Z : Un_cv (fun k => total (map (fun i => Rabs (mean outs p k (G k i))) (seq 0 n))) 0).
      { replace 0 with (total (map (fun i => Rabs (w i * (M i - M i))) (seq 0 n))) by (rewrite (total_ext _ (fun i => 0 * INR i)) by (intros i _; replace (w i * (M i - M i)) with 0 by ring; rewrite Rabs_R0; ring); rewrite total_scale; ring).
        apply cv_total. intros i Hi. apply in_seq in Hi. apply cv_cvabs. apply (cv_ext (fun k => w i * (mean outs p k (fun l => value (W i k l)) - M i))).
        - intros k. unfold G. rewrite (mean_scale _ outs p). f_equal. unfold Rminus. rewrite (mean_plus _ outs p k (fun l => value (W i k l)) (fun _ => - M i)), (mean_const _ outs p law). reflexivity.
        - apply CV_mult; [apply cv_const|]. apply CV_minus; [apply tends; lia|apply cv_const]. }
      apply (cv_ext (fun k => total (map (fun i => Rabs (mean outs p k (G k i))) (seq 0 n)) * total (map (fun i => Rabs (mean outs p k (G k i))) (seq 0 n)))); [intros; ring|]. replace 0 with (0 * 0) by ring. apply CV_mult; exact Z.
    - apply cv_total. intros i Hi. apply in_seq in Hi. apply CV_minus; [apply cv_const|]. apply proper. lia. }
  destruct (C1 eta He) as (K & HK). exists K. intros k Hk. specialize (HK k Hk). unfold R_dist in HK. rewrite Rminus_0_r in HK. pose proof (Rle_abs (total (map (fun i => Rabs (mean outs p k (G k i))) (seq 0 n)) ^ 2 / d ^ 2 + total (map (fun i => 1 - mean outs p k (fun l => if T k i l then 1 else 0)) (seq 0 n)))) as HA.
  assert (Lg : length (map (G k) (seq 0 n)) = n) by (rewrite map_length, seq_length; reflexivity). assert (Lt : length (map (T k) (seq 0 n)) = n) by (rewrite map_length, seq_length; reflexivity).
  pose proof (gens_far A outs p law k (map (G k) (seq 0 n)) d Hd) as F1. pose proof (gens_fails A outs p law k (map (T k) (seq 0 n))) as F2. rewrite Lg in F1. rewrite Lt in F2. rewrite !map_map in F1. rewrite !map_map in F2.
  apply Rle_trans with (gens outs p n k (fun ls => (if some_fails A (map (T k) (seq 0 n)) ls then 1 else 0) + (if Rlt_dec d (Rabs (sums A (map (G k) (seq 0 n)) ls)) then 1 else 0))).
  - apply (gens_le A outs p law). intros ls Hl. unfold astray. rewrite (fails_nth A (T k) n ls Hl). unfold T. rewrite (sums_nth A (G k) n ls Hl).
    replace (total (map (fun i => G k i (nth i ls [])) (seq 0 n))) with (total (map (fun i => w i * value (W i k (nth i ls []))) (seq 0 n)) - total (map (fun i => w i * M i) (seq 0 n))).
    + destruct (existsb _ _), (Rlt_dec _ _); cbn [orb]; lra.
    + unfold Rminus. rewrite <- (Rmult_1_l (total (map (fun i => w i * M i) (seq 0 n)))), Ropp_mult_distr_l, <- total_scale, <- total_plus. apply total_ext. intros i _. unfold G. ring.
  - rewrite (gens_plus A outs p). assert (Q : total (map (fun i => mean outs p k (fun l => G k i l ^ 2)) (seq 0 n)) <= 4 * B ^ 2 * total (map (fun i => w i ^ 2) (seq 0 n))).
    { rewrite <- total_scale. apply total_le. intros i Hi. apply in_seq in Hi. rewrite <- (mean_const _ outs p law k (4 * B ^ 2 * w i ^ 2)). apply (mean_le _ outs p law). intros l _. unfold G. rewrite Rpow_mult_distr, (Rmult_comm (4 * B ^ 2)). apply Rmult_le_compat_l; [apply pow2_ge_0|].
      replace (4 * B ^ 2) with ((2 * B) ^ 2) by ring. rewrite <- (pow2_abs (_ - _)). apply pow_incr. split; [apply Rabs_pos|]. unfold Rminus. eapply Rle_trans; [apply Rabs_triang|]. rewrite Rabs_Ropp. pose proof (Vb (W i k l)). pose proof (Mb i ltac:(lia)). lra. }
    assert (Q' : (total (map (fun i => mean outs p k (fun l => G k i l ^ 2)) (seq 0 n)) + total (map (fun i => Rabs (mean outs p k (G k i))) (seq 0 n)) ^ 2) / d ^ 2 <= 4 * B ^ 2 * total (map (fun i => w i ^ 2) (seq 0 n)) / d ^ 2 + total (map (fun i => Rabs (mean outs p k (G k i))) (seq 0 n)) ^ 2 / d ^ 2).
    { rewrite Rdiv_plus_distr. apply Rplus_le_compat_r. unfold Rdiv. apply Rmult_le_compat_r; [left; apply Rinv_0_lt_compat, D2|exact Q]. }
    lra.
Qed.
End Quantity.
