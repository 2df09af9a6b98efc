(** Averages over entries of a table that are chosen at random and can be chosen twice (C90). *)
From Coq Require Import Reals Lra Lia.
From Verif Require Import M_Base M_Num L_Num M_XReal M_Stats L_PMC S_Stats L_Stats L_Distance L_PosDef S_Law P_Law L_Law L_Gen S_Consist L_LLN S_Collide P_Collide.
Open Scope R_scope.

Lemma mean_swap {A B} (xs : list A) p (ys : list B) q n m : forall F : list A -> list B -> R,
  mean xs p n (fun a => mean ys q m (fun b => F a b)) = mean ys q m (fun b => mean xs p n (fun a => F a b)).
Proof.
  assert (One : forall m (G : A -> list B -> R), expect xs p (fun a => mean ys q m (G a)) = mean ys q m (fun b => expect xs p (fun a => G a b))).
  { clear. induction m as [|m IH]; intros G; cbn [mean]; [reflexivity|]. transitivity (expect ys q (fun b => expect xs p (fun a => mean ys q m (fun l => G a (b :: l))))).
    - unfold expect. rewrite (total_ext _ (fun a => total (map (fun b => p a * (q b * mean ys q m (fun l => G a (b :: l)))) ys))) by (intros; rewrite total_scale; reflexivity).
      rewrite total_swap. apply total_ext. intros b _. rewrite <- total_scale. apply total_ext. intros a _. ring.
    - apply expect_ext. intros b _. apply (IH (fun a l => G a (b :: l))). }
  induction n as [|n IH]; intros F; cbn [mean]; [reflexivity|]. rewrite (expect_ext _ _ _ _ (fun a => mean ys q m (fun b => mean xs p n (fun l => F (a :: l) b)))) by (intros a _; apply (IH (fun l b => F (a :: l) b))). apply One.
Qed.
Lemma mean_cv_in {A} (xs : list A) p j : forall (F : nat -> list A -> R) F', (forall l, length l = j -> (forall x, In x l -> In x xs) -> Un_cv (fun k => F k l) (F' l)) -> Un_cv (fun k => mean xs p j (F k)) (mean xs p j F').
Proof.
  induction j as [|j IH]; intros F F' H; cbn [mean]; [apply H; [reflexivity|intros x []]|]. apply (expect_cv _ xs p (fun k a => mean xs p j (fun l => F k (a :: l)))). intros a Ha. apply IH. intros l Hl Hi. apply H; [cbn; congruence|]. intros x [<-|Hx]; [exact Ha|apply Hi, Hx].
Qed.
Lemma nth_all {X} (l : list X) d : map (fun i => nth i l d) (seq 0 (length l)) = l.
Proof. induction l as [|x l IH]; [reflexivity|]. cbn [length seq map nth]. f_equal. rewrite <- seq_shift, map_map. exact IH. Qed.

Section Moments.
Variable A : Type.
Variable outs : list A.
Variable p : A -> R.
Hypothesis law : Law outs p.
Lemma mean_total f n : mean outs p n (fun l => total (map f l)) = INR n * expect outs p f.
Proof.
  induction n as [|n IH]; cbn [mean]; [cbn; ring|]. rewrite (expect_ext _ _ _ _ (fun a => f a + INR n * expect outs p f)).
  - rewrite expect_plus, (expect_const _ _ _ _ law), S_INR. ring.
  - intros a _. rewrite (mean_ext _ _ _ _ _ (fun l => f a + total (map f l))) by (intros; cbn [map]; apply total_cons). rewrite (mean_plus _ outs p), IH, (mean_const _ outs p law). ring.
Qed.
Lemma mean_square2 f n : mean outs p n (fun l => total (map f l) ^ 2) = INR n * expect outs p (fun a => f a ^ 2) + INR n * (INR n - 1) * expect outs p f ^ 2.
Proof.
  induction n as [|n IH]; cbn [mean]; [cbn; ring|]. rewrite (expect_ext _ _ _ _ (fun a => f a ^ 2 + (2 * (INR n * expect outs p f) * f a + (INR n * expect outs p (fun a => f a ^ 2) + INR n * (INR n - 1) * expect outs p f ^ 2)))).
  - rewrite !expect_plus, expect_scale, !(expect_const _ _ _ _ law), S_INR. ring.
  - intros a _. rewrite (mean_ext _ _ _ _ _ (fun l => f a ^ 2 + (2 * f a * total (map f l) + total (map f l) ^ 2))) by (intros; cbn [map]; rewrite total_cons; ring).
    rewrite !(mean_plus _ outs p), (mean_scale _ outs p), mean_total, IH, (mean_const _ outs p law). ring.
Qed.
End Moments.

(** entry number s - 1 of a table, for a seed s from 1 on *)
Definition entry (tab : list R) (s : Z) : R := nth (Z.to_nat s - 1) tab 0.
Lemma entry_expect (h : R -> R) tab m : length tab = m -> expect (ints 1 m) (even m) (fun s => h (entry tab s)) = total (map h tab) / INR m.
Proof.
  intros Hm. unfold expect, even, ints. rewrite map_map, total_scale. unfold Rdiv. rewrite Rmult_comm. apply Rmult_eq_compat_r. transitivity (total (map h (map (fun i => nth i tab 0) (seq 0 (length tab))))); [|rewrite nth_all; reflexivity]. rewrite map_map, Hm. apply total_ext. intros i _. unfold entry. do 2 f_equal. lia.
Qed.

Section Shared.
Variable B : Type.
Variable xs : list B.
Variable mu : B -> R.
Hypothesis law : Law xs mu.
Variable m : nat.
Hypothesis m_pos : (0 < m)%nat.
Variable g : B -> R.
Notation c := (expect xs mu g).
Notation both n F := (mean (ints 1 m) (even m) n (fun seeds => mean xs mu m (fun tab => F (average (map (entry (map g tab)) seeds))))).
Let mlaw := even_law Z (ints 1 m) m (ints_length 1 m) m_pos.
(** the mean square error of the average over n entries chosen at random *)
Lemma shared_error n : (0 < n)%nat -> both n (fun x => (x - c) ^ 2) = variance xs mu g / INR n * (1 + (INR n - 1) / INR m).
Proof.
  intros Hn. assert (HN : 0 < INR n) by (apply lt_0_INR; lia). assert (HM : 0 < INR m) by (apply lt_0_INR; exact m_pos). rewrite mean_swap.
  transitivity (mean xs mu m (fun tab => / INR n ^ 2 * (INR n * / INR m * total (map (fun b => (g b - c) ^ 2) tab) + INR n * (INR n - 1) * / INR m ^ 2 * total (map (fun b => g b - c) tab) ^ 2))).
  - apply mean_ext. intros tab Ht. rewrite (mean_ext _ _ _ _ _ (fun seeds => / INR n ^ 2 * total (map (fun s => entry (map g tab) s - c) seeds) ^ 2)).
    + rewrite (mean_scale _ (ints 1 m) (even m)), (mean_square2 Z (ints 1 m) (even m) mlaw). rewrite (entry_expect (fun x => (x - c) ^ 2)), (entry_expect (fun x => x - c)) by (rewrite map_length; exact Ht). rewrite !map_map. field. split; lra.
    + intros seeds Hs. unfold average. rewrite map_length, Hs, total_minus, total_const_map, Hs. field. lra.
  - rewrite (mean_scale _ xs mu), (mean_plus _ xs mu), !(mean_scale _ xs mu), (mean_total B xs mu law), (mean_square _ xs mu law (fun b => g b - c)) by (apply centre, law). fold (variance xs mu g). field. split; lra.
Qed.
Lemma shared_far n e : (0 < n)%nat -> 0 < e -> both n (fun x => if far e x c then 1 else 0) <= variance xs mu g / (INR n * e ^ 2) * (1 + (INR n - 1) / INR m).
Proof.
  intros Hn He. assert (HN : 0 < INR n) by (apply lt_0_INR; lia). assert (HM : 0 < INR m) by (apply lt_0_INR; exact m_pos). assert (E2 : 0 < e ^ 2) by (apply pow_lt, He).
  replace (variance xs mu g / (INR n * e ^ 2) * (1 + (INR n - 1) / INR m)) with (/ e ^ 2 * (variance xs mu g / INR n * (1 + (INR n - 1) / INR m))) by (field; repeat split; lra).
  rewrite <- (shared_error n Hn), <- (mean_scale _ (ints 1 m) (even m)). apply (mean_le _ _ _ mlaw). intros seeds _. rewrite <- (mean_scale _ xs mu). apply (mean_le _ _ _ law). intros tab _.
  set (x := average _). unfold far. destruct (Rlt_dec e (Rabs (x - c))) as [H|H].
  - apply Rmult_le_reg_l with (e ^ 2); [exact E2|]. rewrite <- Rmult_assoc, Rinv_r, Rmult_1_l, Rmult_1_r by lra. rewrite <- (pow2_abs (x - c)). apply pow_incr. lra.
  - apply Rmult_le_pos; [left; apply Rinv_0_lt_compat, E2|apply pow2_ge_0].
Qed.
End Shared.
