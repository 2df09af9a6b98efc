From Coq Require Import Reals Binomial Lra Lia List ZArith.
From Verif Require Import M_Base M_Num M_XReal M_Transform M_MMD M_Stats M_Priors S_Stats S_Priors L_PMC L_Stats L_Distance.
Import ListNotations.
Open Scope R_scope.

(** ** binomial masses *)
Lemma outcomes_len n : forall o, In o (outcomes n) -> length o = n.
Proof. induction n as [|n IH]; cbn [outcomes]; intros o H.
  - destruct H as [<-|[]]; reflexivity.
  - apply in_app_or in H. destruct H as [H|H]; apply in_map_iff in H; destruct H as (o' & <- & H); cbn; f_equal; auto. Qed.
Lemma outcomes_all : forall o, In o (outcomes (length o)).
Proof. induction o as [|b o IH]; [now left|]. cbn [length outcomes]. apply in_or_app. destruct b; [left|right]; apply in_map; auto. Qed.
Lemma hits_le o : (hits o <= length o)%nat.
Proof. unfold hits. induction o as [|[] o IH]; cbn; lia. Qed.
Lemma weight_cons p b o : weight p (b :: o) = (if b then p else 1 - p) * weight p o. Proof. reflexivity. Qed.
Lemma total_weight_cons p b l : total (map (weight p) (map (cons b) l)) = (if b then p else 1 - p) * total (map (weight p) l).
Proof. induction l as [|o l IH]; [cbn [map]; change (total []) with 0; destruct b; ring|]. cbn [map]. rewrite !total_cons, weight_cons, IH. ring. Qed.
Lemma filter_cons_true k l : filter (fun o => Nat.eqb (hits o) (S k)) (map (cons true) l) = map (cons true) (filter (fun o => Nat.eqb (hits o) k) l).
Proof. induction l as [|o l IH]; [reflexivity|]. cbn [map filter]. change (hits (true :: o)) with (S (hits o)). cbn [Nat.eqb]. destruct (Nat.eqb (hits o) k); cbn [map]; now rewrite IH. Qed.
Lemma filter_cons_true0 l : filter (fun o => Nat.eqb (hits o) 0) (map (cons true) l) = [].
Proof. induction l as [|o l IH]; [reflexivity|]. cbn [map filter]. change (hits (true :: o)) with (S (hits o)). cbn [Nat.eqb]. exact IH. Qed.
Lemma filter_cons_false k l : filter (fun o => Nat.eqb (hits o) k) (map (cons false) l) = map (cons false) (filter (fun o => Nat.eqb (hits o) k) l).
Proof. induction l as [|o l IH]; [reflexivity|]. cbn [map filter]. change (hits (false :: o)) with (hits o). destruct (Nat.eqb (hits o) k); cbn [map]; now rewrite IH. Qed.
Lemma chance_S0 p n : chance p (S n) 0 = (1 - p) * chance p n 0.
Proof. unfold chance. cbn [outcomes]. rewrite filter_app, filter_cons_true0, filter_cons_false. cbn [app]. apply (total_weight_cons p false). Qed.
Lemma chance_SS p n k : chance p (S n) (S k) = p * chance p n k + (1 - p) * chance p n (S k).
Proof. unfold chance. cbn [outcomes]. rewrite filter_app, filter_cons_true, filter_cons_false, map_app, total_app, (total_weight_cons p true), (total_weight_cons p false). reflexivity. Qed.
Lemma chance_large p n : forall k, (n < k)%nat -> chance p n k = 0.
Proof. induction n as [|n IH]; intros [|k] H; try lia; [reflexivity|]. rewrite chance_SS, !IH by lia. ring. Qed.
Lemma C_0 n : C n 0 = 1.
Proof. unfold C. rewrite Nat.sub_0_r. cbn [fact]. rewrite Rmult_1_l. apply Rinv_r, INR_fact_neq_0. Qed.
Lemma C_n n : C n n = 1.
Proof. unfold C. rewrite Nat.sub_diag. cbn [fact]. rewrite Rmult_1_r. apply Rinv_r, INR_fact_neq_0. Qed.
Lemma chance_formula p n : forall k, (k <= n)%nat -> chance p n k = C n k * p ^ k * (1 - p) ^ (n - k).
Proof.
  induction n as [|n IH]; intros k H.
  - replace k with 0%nat by lia. unfold chance. cbn [outcomes filter hits length Nat.eqb map]. rewrite total_cons, C_0. change (total []) with 0. cbn. ring.
  - destruct k as [|k].
    + rewrite chance_S0, IH by lia. rewrite !C_0, !Nat.sub_0_r. cbn [pow]. ring.
    + rewrite chance_SS, IH by lia. destruct (Nat.eq_dec k n) as [->|Hk].
      * rewrite chance_large by lia. rewrite !C_n, !Nat.sub_diag. cbn [pow]. ring.
      * rewrite IH by lia. rewrite <- pascal by lia. replace (S n - S k)%nat with (n - k)%nat by lia. replace (n - k)%nat with (S (n - S k)) by lia. cbn [pow]. ring.
Qed.
Lemma total_sum_f f n : total (map f (seq 0 (S n))) = sum_f_R0 f n.
Proof. induction n as [|n IH]; [cbn [seq map]; rewrite total_cons; change (total []) with 0; cbn; ring|].
  rewrite seq_S, map_app, total_app, IH. cbn [map]. rewrite total_cons. change (total []) with 0. cbn [sum_f_R0]. rewrite Nat.add_0_l. ring. Qed.
Lemma chance_total p n : total (map (chance p n) (seq 0 (S n))) = 1.
Proof.
  rewrite total_sum_f. transitivity (sum_f_R0 (fun i => C n i * p ^ i * (1 - p) ^ (n - i)) n).
  - apply sum_eq. intros i Hi. now apply chance_formula.
  - rewrite <- binomial. replace (p + (1 - p)) with 1 by ring. apply pow1.
Qed.
Lemma weight_nonneg p o : 0 <= p <= 1 -> 0 <= weight p o.
Proof. intros Hp. induction o as [|b o IH]; [cbn; lra|]. rewrite weight_cons. apply Rmult_le_pos; [destruct b; lra|exact IH]. Qed.
Lemma total_nonneg_map {A} (f : A -> R) l : (forall x, In x l -> 0 <= f x) -> 0 <= total (map f l).
Proof. induction l as [|a l IH]; intros H; [change (0 <= 0); lra|]. cbn [map]. rewrite total_cons. pose proof (H a (or_introl eq_refl)). assert (0 <= total (map f l)) by (apply IH; intros; apply H; now right). lra. Qed.
Lemma chance_nonneg p n k : 0 <= p <= 1 -> 0 <= chance p n k.
Proof. intros Hp. apply total_nonneg_map. intros o _. now apply weight_nonneg. Qed.
Lemma total_ge {A} (f : A -> R) l a : (forall x, In x l -> 0 <= f x) -> In a l -> f a <= total (map f l).
Proof. induction l as [|b l IH]; intros H Ha; [destruct Ha|]. cbn [map]. rewrite total_cons.
  assert (Hl : 0 <= total (map f l)) by (apply total_nonneg_map; intros; apply H; now right).
  destruct Ha as [->|Ha]; [lra|]. pose proof (H b (or_introl eq_refl)). assert (f a <= total (map f l)) by (apply IH; [intros; apply H; now right|exact Ha]). lra. Qed.
(** the result that was observed has positive probability *)
Lemma chance_pos p o : 0 <= p <= 1 -> 0 < weight p o -> 0 < chance p (length o) (hits o).
Proof. intros Hp Hw. eapply Rlt_le_trans; [exact Hw|]. unfold chance. apply (total_ge (weight p)); [intros; now apply weight_nonneg|].
  apply filter_In. split; [apply outcomes_all|apply Nat.eqb_refl]. Qed.

(** ** numbers *)
Lemma xpow_fin r k : xpow (XR r) k = XR (r ^ k).
Proof. induction k as [|k IH]; [reflexivity|]. destruct k as [|k]; [cbn; f_equal; ring|]. change (xpow (XR r) (S (S k))) with (xmul (XR r) (xpow (XR r) (S k))). rewrite IH. reflexivity. Qed.
Lemma Int_part_IZR z : Int_part (IZR z) = z.
Proof. unfold Int_part. rewrite <- (tech_up (IZR z) (z + 1)); [lia| |]; rewrite plus_IZR; lra. Qed.
Lemma Int_part_unique r z : IZR z <= r < IZR z + 1 -> Int_part r = z.
Proof. intros H. unfold Int_part. rewrite <- (tech_up r (z + 1)); [lia| |]; rewrite plus_IZR; lra. Qed.
Lemma Int_part_bounds r : IZR (Int_part r) <= r < IZR (Int_part r) + 1.
Proof. destruct (base_Int_part r) as [H1 H2]. lra. Qed.
Lemma as_int_IZR z : as_int (XR (IZR z)) = Some z.
Proof. unfold as_int. rewrite Int_part_IZR. destruct (Req_EM_T _ _); [reflexivity|congruence]. Qed.
Lemma as_int_spec x z : as_int x = Some z -> x = XR (IZR z).
Proof. destruct x as [r| | |]; cbn; try discriminate. destruct (Req_EM_T r (IZR (Int_part r))) as [H|H]; [|discriminate]. intros [= <-]. now f_equal. Qed.
Lemma xle_fin a b : xle (XR a) (XR b) = true <-> a <= b.
Proof. cbn. destruct (Rle_dec a b); split; intros; [assumption|reflexivity|discriminate|contradiction]. Qed.
Lemma xle_fin_false a b : xle (XR a) (XR b) = false <-> b < a.
Proof. cbn. destruct (Rle_dec a b); split; intros; try reflexivity; try discriminate; lra. Qed.
Lemma xlt_fin a b : xlt (XR a) (XR b) = true <-> a < b.
Proof. cbn. destruct (Rlt_dec a b); split; intros; [assumption|reflexivity|discriminate|contradiction]. Qed.
Lemma xlt_fin_false a b : xlt (XR a) (XR b) = false <-> b <= a.
Proof. cbn. destruct (Rlt_dec a b); split; intros; try reflexivity; try discriminate; lra. Qed.
Lemma to_int_z (v : pyv) z : val v = XR (IZR z) -> to_int v = Ok z.
Proof.
  destruct v as [y|w y|[r| | |]|[r| | |]]; cbn; intros H; try discriminate; try (injection H as H; apply eq_IZR in H; now subst);
  injection H as ->; (destruct (Rlt_dec (IZR z) 0) as [Hn|Hn]; [rewrite <- opp_IZR, Int_part_IZR; f_equal; lia|now rewrite Int_part_IZR]).
Qed.
