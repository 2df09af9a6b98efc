(** Chains that mix: convergence in law and averages along the chain (C88). *)
From Coq Require Import Reals Lra Lia Wf_nat.
From Verif Require Import M_Base M_Num L_Num M_XReal M_Stats L_PMC S_Stats L_Stats L_Distance L_PosDef S_Law P_Law L_Law L_Gen S_Consist L_LLN S_Ergodic.
Open Scope R_scope.

Lemma uniform_low {X} (Pr : X -> R -> Prop) (l : list X) : (forall x c c', In x l -> 0 < c' <= c -> Pr x c -> Pr x c') -> (forall x, In x l -> exists c, 0 < c /\ Pr x c) -> exists c, 0 < c /\ forall x, In x l -> Pr x c.
Proof.
  induction l as [|x l IH]; intros Hm H; [exists 1; split; [lra|intros x []]|].
  destruct IH as (c & Hc & Hl); [intros z a b Hz; apply Hm; right; exact Hz|intros z Hz; apply H; right; exact Hz|]. destruct (H x (or_introl eq_refl)) as (d & Hd & Hx). exists (Rmin c d). assert (0 < Rmin c d) by (apply Rmin_glb_lt; assumption). split; [assumption|].
  intros z [<-|Hz]; [apply (Hm x d); [left; reflexivity|split; [assumption|apply Rmin_r]|exact Hx]|apply (Hm z c); [right; exact Hz|split; [assumption|apply Rmin_l]|apply Hl, Hz]].
Qed.
Lemma uniform_high {X} (Pr : X -> R -> Prop) (l : list X) : (forall x c c', c <= c' -> Pr x c -> Pr x c') -> (forall x, In x l -> exists c, 0 <= c /\ Pr x c) -> exists c, 0 <= c /\ forall x, In x l -> Pr x c.
Proof.
  intros Hm. induction l as [|x l IH]; intros H; [exists 0; split; [lra|intros x []]|].
  destruct IH as (c & Hc & Hl); [intros z Hz; apply H; right; exact Hz|]. destruct (H x (or_introl eq_refl)) as (d & Hd & Hx). exists (Rmax c d). split; [apply Rle_trans with c; [exact Hc|apply Rmax_l]|].
  intros z [<-|Hz]; [apply (Hm x d); [apply Rmax_r|exact Hx]|apply (Hm z c); [apply Rmax_l|apply Hl, Hz]].
Qed.
Lemma member_le {X} (l : list X) (h : X -> R) x : In x l -> (forall z, In z l -> 0 <= h z) -> h x <= total (map h l).
Proof.
  induction l as [|y l IH]; intros Hx Hh; [destruct Hx|]. cbn [map]. rewrite total_cons. assert (0 <= total (map h l)) by (rewrite <- (Rmult_0_r (INR (length l))), <- (total_const_map l 0); apply total_le; intros z Hz; apply Hh; right; exact Hz).
  destruct Hx as [->|Hx]; [lra|]. specialize (IH Hx (fun z Hz => Hh z (or_intror Hz))). pose proof (Hh y (or_introl eq_refl)). lra.
Qed.

Section Chain.
Variable X : Type.
Variable ok : X -> Prop.
Variable step : (X -> R) -> X -> R.
Variable law : (X -> R) -> R.
Hypothesis step_le : forall f g s, (forall x, ok x -> f x <= g x) -> ok s -> step f s <= step g s.
Hypothesis step_lin : forall a f g s, step (fun x => a * f x + g x) s = a * step f s + step g s.
Hypothesis step_one : forall c s, step (fun _ => c) s = c.
Hypothesis law_lin : forall a f g, law (fun x => a * f x + g x) = a * law f + law g.
Hypothesis law_one : forall c, law (fun _ => c) = c.
Hypothesis law_ext : forall f g, (forall x, ok x -> f x = g x) -> law f = law g.
Hypothesis invariant : forall f, law (step f) = law f.
Fixpoint steps (n : nat) (f : X -> R) (s : X) : R := match n with O => f s | S k => step (steps k f) s end.
Variable m : nat.
Variable d : R.
Hypothesis m_pos : (0 < m)%nat.
Hypothesis d_pos : 0 < d.
Hypothesis minor : forall f s, (forall x, ok x -> 0 <= f x) -> ok s -> d * law f <= steps m f s.

Lemma step_ext f g s : (forall x, ok x -> f x = g x) -> ok s -> step f s = step g s.
Proof. intros H Hs. apply Rle_antisym; apply step_le; try exact Hs; intros x Hx; rewrite (H x Hx); apply Rle_refl. Qed.
Lemma steps_le n : forall f g s, (forall x, ok x -> f x <= g x) -> ok s -> steps n f s <= steps n g s.
Proof. induction n as [|n IH]; intros f g s H Hs; cbn [steps]; [apply H, Hs|]. apply step_le; [|exact Hs]. intros x Hx. apply IH; assumption. Qed.
Lemma steps_ext n f g s : (forall x, ok x -> f x = g x) -> ok s -> steps n f s = steps n g s.
Proof. intros H Hs. apply Rle_antisym; apply steps_le; try exact Hs; intros x Hx; rewrite (H x Hx); apply Rle_refl. Qed.
Lemma steps_lin n : forall a f g s, ok s -> steps n (fun x => a * f x + g x) s = a * steps n f s + steps n g s.
Proof. induction n as [|n IH]; intros a f g s Hs; cbn [steps]; [reflexivity|]. rewrite <- step_lin. apply step_ext; [|exact Hs]. intros x Hx. apply IH, Hx. Qed.
Lemma steps_one n : forall c s, ok s -> steps n (fun _ => c) s = c.
Proof. induction n as [|n IH]; intros c s Hs; cbn [steps]; [reflexivity|]. rewrite (step_ext _ (fun _ => c)); [apply step_one| |exact Hs]. intros x Hx. apply IH, Hx. Qed.
Lemma steps_add n1 n2 f : forall s, ok s -> steps (n1 + n2) f s = steps n1 (steps n2 f) s.
Proof. induction n1 as [|n1 IH]; intros s Hs; cbn [steps Nat.add]; [reflexivity|]. apply step_ext; assumption. Qed.
Lemma law_steps n f : law (steps n f) = law f.
Proof. induction n as [|n IH]; cbn [steps]; [reflexivity|]. rewrite <- IH. apply invariant. Qed.
Lemma law_zero : law (fun _ => 0) = 0.
Proof. apply law_one. Qed.
(** m steps bring a centred quantity closer to zero *)
Lemma contract f G s : law f = 0 -> (forall x, ok x -> Rabs (f x) <= G) -> ok s -> Rabs (steps m f s) <= (1 - d) * G.
Proof.
  intros Hf HG Hs. assert (Hb : forall x, ok x -> - G <= f x <= G) by (intros x Hx; specialize (HG x Hx); unfold Rabs in HG; destruct (Rcase_abs (f x)); lra).
  assert (H1 : d * G <= steps m f s + G).
  { pose proof (minor (fun x => 1 * f x + G) s ltac:(intros x Hx; specialize (Hb x Hx); lra) Hs) as H. rewrite law_lin, Hf, law_one, steps_lin, steps_one in H by exact Hs. lra. }
  assert (H2 : d * G <= G - steps m f s).
  { pose proof (minor (fun x => (-1) * f x + G) s ltac:(intros x Hx; specialize (Hb x Hx); lra) Hs) as H. rewrite law_lin, Hf, law_one, steps_lin, steps_one in H by exact Hs. lra. }
  apply Rabs_le. lra.
Qed.
Lemma d_le s : ok s -> d <= 1.
Proof. intros Hs. pose proof (minor (fun _ => 1) s ltac:(intros; lra) Hs) as H. rewrite law_one, steps_one in H by exact Hs. lra. Qed.
Lemma keep n f G s : (forall x, ok x -> Rabs (f x) <= G) -> ok s -> Rabs (steps n f s) <= G.
Proof.
  intros HG Hs. apply Rabs_le. rewrite <- (steps_one n G s Hs) at 2. rewrite <- (steps_one n (- G) s Hs). split; apply steps_le; try exact Hs; intros x Hx; specialize (HG x Hx); unfold Rabs in HG; destruct (Rcase_abs (f x)); lra.
Qed.
(** convergence in law *)
Lemma forget j r : forall f G s, law f = 0 -> (forall x, ok x -> Rabs (f x) <= G) -> ok s -> Rabs (steps (j * m + r) f s) <= G * (1 - d) ^ j.
Proof.
  induction j as [|j IH]; intros f G s Hf HG Hs; [rewrite pow_O, Rmult_1_r; cbn [Nat.mul Nat.add]; apply keep; assumption|].
  replace (S j * m + r)%nat with ((j * m + r) + m)%nat by lia. rewrite steps_add by exact Hs.
  replace (G * (1 - d) ^ S j) with (((1 - d) * G) * (1 - d) ^ j) by (cbn [pow]; ring). apply IH; [rewrite law_steps; exact Hf| |exact Hs]. intros x Hx. apply contract; assumption.
Qed.
Theorem converges f M s n : (forall x, ok x -> Rabs (f x - law f) <= M) -> ok s -> Rabs (steps n f s - law f) <= M * (1 - d) ^ (n / m).
Proof.
  intros HM Hs. replace (steps n f s - law f) with (steps n (fun x => 1 * f x + - law f) s) by (rewrite steps_lin, steps_one by exact Hs; ring).
  rewrite (Nat.div_mod n m) at 1 by lia. rewrite (Nat.mul_comm m). apply forget; [rewrite law_lin, law_one; ring| |exact Hs]. intros x Hx. replace (1 * f x + - law f) with (f x - law f) by ring. apply HM, Hx.
Qed.

(** sum of the expectations of the next n states *)
Fixpoint expected (n : nat) (g : X -> R) (s : X) : R := match n with O => 0 | S k => g s + expected k (step g) s end.
Lemma expected_le : forall n g G s, law g = 0 -> (forall x, ok x -> Rabs (g x) <= G) -> ok s -> Rabs (expected n g s) <= INR n * G.
Proof.
  induction n as [|n IH]; intros g G s Hg HG Hs; cbn [expected]; [rewrite Rabs_R0; cbn; lra|]. rewrite S_INR. apply Rle_trans with (Rabs (g s) + Rabs (expected n (step g) s)); [apply Rabs_triang|].
  replace ((INR n + 1) * G) with (G + INR n * G) by ring. apply Rplus_le_compat; [apply HG, Hs|]. apply IH; [rewrite invariant; exact Hg| |exact Hs]. intros x Hx. apply (keep 1 g G x HG Hx).
Qed.
Lemma expected_app : forall n1 n2 g s, ok s -> expected (n1 + n2) g s = expected n1 g s + expected n2 (steps n1 g) s.
Proof.
  induction n1 as [|n1 IH]; intros n2 g s Hs; cbn [expected Nat.add]; [cbn [steps]; change (fun s => g s) with g; lra|]. rewrite IH by exact Hs.
  assert (E : forall n h h', (forall x, ok x -> h x = h' x) -> expected n h s = expected n h' s).
  { clear IH. induction n as [|n IH]; intros h h' H; cbn [expected]; [reflexivity|]. rewrite (H s Hs). f_equal. apply IH. intros x Hx. apply step_ext; assumption. }
  rewrite (E n2 (steps n1 (step g)) (steps (S n1) g)); [ring|]. intros x Hx. change (step g) with (steps 1 g). rewrite <- steps_add by exact Hx. rewrite Nat.add_1_r. reflexivity.
Qed.
Lemma expected_bound : forall n g G s, law g = 0 -> (forall x, ok x -> Rabs (g x) <= G) -> ok s -> Rabs (expected n g s) <= INR m * G / d.
Proof.
  intros n. induction n as [n IH] using (well_founded_induction lt_wf). intros g G s Hg HG Hs.
  assert (G0 : 0 <= G) by (apply Rle_trans with (Rabs (g s)); [apply Rabs_pos|apply HG, Hs]). pose proof (d_le s Hs) as D1. assert (HmG : 0 <= INR m * G) by (apply Rmult_le_pos; [apply pos_INR|exact G0]).
  destruct (le_lt_dec n m) as [H|H].
  - apply Rle_trans with (INR n * G); [apply expected_le; assumption|]. apply Rle_trans with (INR m * G); [apply Rmult_le_compat_r; [exact G0|apply le_INR; exact H]|].
    unfold Rdiv. rewrite <- (Rmult_1_r (INR m * G)) at 1. apply Rmult_le_compat_l; [exact HmG|]. rewrite <- Rinv_1. apply Rinv_le_contravar; lra.
  - replace n with (m + (n - m))%nat by lia. rewrite expected_app by exact Hs. eapply Rle_trans; [apply Rabs_triang|].
    replace (INR m * G / d) with (INR m * G + INR m * ((1 - d) * G) / d) by (field; lra). apply Rplus_le_compat; [apply expected_le; assumption|].
    apply IH; [lia|rewrite law_steps; exact Hg| |exact Hs]. intros x Hx. apply contract; assumption.
Qed.

Notation along := (along step).
Lemma along_le n : forall F H s, (forall l, length l = n -> Forall ok l -> F l <= H l) -> ok s -> along n F s <= along n H s.
Proof.
  induction n as [|n IH]; intros F H s HF Hs; cbn [S_Ergodic.along]; [apply HF; [reflexivity|constructor]|]. apply step_le; [|exact Hs]. intros x Hx. apply IH; [|exact Hx]. intros l Hl Ho. apply HF; [cbn; rewrite Hl; reflexivity|constructor; assumption].
Qed.
Lemma along_ext n F H s : (forall l, length l = n -> Forall ok l -> F l = H l) -> ok s -> along n F s = along n H s.
Proof. intros HF Hs. apply Rle_antisym; apply along_le; try exact Hs; intros l Hl Ho; rewrite (HF l Hl Ho); apply Rle_refl. Qed.
Lemma along_lin n : forall a F H s, ok s -> along n (fun l => a * F l + H l) s = a * along n F s + along n H s.
Proof. induction n as [|n IH]; intros a F H s Hs; cbn [S_Ergodic.along]; [reflexivity|]. rewrite <- step_lin. apply step_ext; [|exact Hs]. intros x Hx. apply IH, Hx. Qed.
Lemma along_one n : forall c s, ok s -> along n (fun _ => c) s = c.
Proof. induction n as [|n IH]; intros c s Hs; cbn [S_Ergodic.along]; [reflexivity|]. rewrite (step_ext _ (fun _ => c)); [apply step_one| |exact Hs]. intros x Hx. apply IH, Hx. Qed.
Lemma expected_step n : forall g s, ok s -> expected n (step g) s = step (expected n g) s.
Proof.
  induction n as [|n IH]; intros g s Hs; cbn [expected]; [symmetry; apply step_one|]. rewrite IH by exact Hs. rewrite <- (Rmult_1_l (step g s)), <- step_lin. apply step_ext; [|exact Hs]. intros x _. ring.
Qed.
Lemma along_sum n : forall g s, ok s -> along n (fun l => total (map g l)) s = expected n (step g) s.
Proof.
  induction n as [|n IH]; intros g s Hs; cbn [S_Ergodic.along expected]; [reflexivity|].
  rewrite (step_ext _ (fun x => 1 * g x + expected n (step g) x)); [|intros x Hx; rewrite (along_ext n _ (fun l => 1 * total (map g l) + g x)) by first [exact Hx | intros l _ _; cbn [map]; rewrite total_cons; ring]; rewrite along_lin, along_one, IH by exact Hx; ring|exact Hs].
  rewrite step_lin, <- expected_step by exact Hs. ring.
Qed.
(** the mean square of a sum of centred terms along the chain grows only linearly *)
Lemma along_square g G : law g = 0 -> (forall x, ok x -> Rabs (g x) <= G) -> forall n s, ok s -> along n (fun l => total (map g l) ^ 2) s <= INR n * (G ^ 2 + 2 * G * (INR m * G / d)).
Proof.
  intros Hg HG. induction n as [|n IH]; intros s Hs; [cbn; lra|]. cbn [S_Ergodic.along]. rewrite S_INR. rewrite <- (step_one ((INR n + 1) * (G ^ 2 + 2 * G * (INR m * G / d))) s). apply step_le; [|exact Hs].
  intros x Hx. rewrite (along_ext n _ (fun l => 2 * g x * total (map g l) + (1 * total (map g l) ^ 2 + g x ^ 2))) by first [exact Hx | intros l _ _; cbn [map]; rewrite total_cons; ring].
  rewrite !along_lin, along_one, along_sum by exact Hx. specialize (IH x Hx).
  assert (B : Rabs (expected n (step g) x) <= INR m * G / d) by (apply expected_bound; [rewrite invariant; exact Hg|intros z Hz; apply (keep 1 g G z HG Hz)|exact Hx]).
  assert (Q : g x ^ 2 <= G ^ 2) by (rewrite <- (pow2_abs (g x)); apply pow_incr; split; [apply Rabs_pos|apply HG, Hx]).
  assert (C : g x * expected n (step g) x <= G * (INR m * G / d)).
  { eapply Rle_trans; [apply Rle_abs|]. rewrite Rabs_mult. apply Rmult_le_compat; [apply Rabs_pos|apply Rabs_pos|apply HG, Hx|exact B]. }
  lra.
Qed.
Theorem along_average f M n e s : (0 < n)%nat -> 0 < e -> (forall x, ok x -> Rabs (f x - law f) <= M) -> ok s ->
  along n (fun l => if far e (average (map f l)) (law f) then 1 else 0) s <= (1 + 2 * INR m / d) * M ^ 2 / (INR n * e ^ 2).
Proof.
  intros Hn He HM Hs. assert (HN : 0 < INR n) by (apply lt_0_INR; lia). assert (He2 : 0 < e ^ 2) by (apply pow_lt; exact He). set (g := fun x => 1 * f x + - law f).
  assert (Hg : law g = 0) by (unfold g; rewrite law_lin, law_one; ring). assert (HG : forall x, ok x -> Rabs (g x) <= M) by (intros x Hx; unfold g; replace (1 * f x + - law f) with (f x - law f) by ring; apply HM, Hx).
  pose proof (along_square g M Hg HG n s Hs) as Sq. set (c := INR n * e) in *. assert (Hc : 0 < c) by (apply Rmult_lt_0_compat; assumption). assert (Hc2 : 0 < c ^ 2) by (apply pow_lt; exact Hc).
  apply Rmult_le_reg_l with (c ^ 2); [exact Hc2|]. apply Rle_trans with (along n (fun l => total (map g l) ^ 2) s).
  - rewrite <- (Rplus_0_r (c ^ 2 * _)). rewrite <- (along_one n 0 s Hs) at 1. rewrite <- along_lin by exact Hs. apply along_le; [|exact Hs]. intros l Hl _. unfold far.
    assert (E : total (map g l) = INR n * (average (map f l) - law f)).
    { unfold g, average. rewrite map_length, Hl. rewrite (total_ext _ (fun x => f x - law f)) by (intros; ring). rewrite total_minus, total_const_map, Hl. field. lra. }
    destruct (Rlt_dec e _) as [H|H]; [|rewrite Rmult_0_r, Rplus_0_r; apply pow2_ge_0]. rewrite Rmult_1_r, Rplus_0_r, <- (pow2_abs (total _)), E, Rabs_mult, (Rabs_right (INR n)) by lra. apply pow_incr. split; [lra|]. unfold c. apply Rmult_le_compat_l; lra.
  - eapply Rle_trans; [exact Sq|]. right. unfold c. field. split; lra.
Qed.
End Chain.

Section Reaching.
Variables T D : Type.
Variable outs : list D.
Variable p : D -> R.
Variable move : T -> D -> T.
Variable Ys : list T.
Notation Reach := (Reach outs p move Ys).
Lemma Reach_app a b y z w : Reach a y z -> Reach b z w -> Reach (a + b) y w.
Proof. intros H. revert b w. induction H as [y|m y d y' Hd Hp Hm H IH]; intros b w Hb; cbn [Nat.add]; [exact Hb|]. apply (Reach_move _ _ _ _ _ _ d); try assumption. apply IH, Hb. Qed.
Lemma Reach_stay y k : Reach 1 y y -> Reach k y y.
Proof. intros H. induction k as [|k IH]; [constructor|]. apply (Reach_app 1 k y y y H IH). Qed.
(** if all positions are connected and one can stay, some number of proposals leads from everywhere to everywhere *)
Lemma connected_uniform : Connected outs p move Ys -> exists m, (0 < m)%nat /\ forall y y', In y Ys -> In y' Ys -> Reach m y y'.
Proof.
  intros (Hc & y0 & H0 & Hs).
  assert (F : forall l, (forall y, In y l -> In y Ys) -> exists m, forall y, In y l -> Reach m y y0).
  { induction l as [|y l IH]; intros Hl; [exists O; intros y []|]. destruct IH as (m & Hm); [intros z Hz; apply Hl; right; exact Hz|]. destruct (Hc y y0 (Hl y (or_introl eq_refl)) H0) as (m1 & H1). exists (Nat.max m m1). intros z [<-|Hz].
    - replace (Nat.max m m1) with (m1 + (Nat.max m m1 - m1))%nat by lia. apply (Reach_app _ _ _ _ _ H1), Reach_stay, Hs.
    - replace (Nat.max m m1) with (m + (Nat.max m m1 - m))%nat by lia. apply (Reach_app _ _ _ _ _ (Hm z Hz)), Reach_stay, Hs. }
  assert (G : forall l, (forall y, In y l -> In y Ys) -> exists m, forall y, In y l -> Reach m y0 y).
  { induction l as [|y l IH]; intros Hl; [exists O; intros y []|]. destruct IH as (m & Hm); [intros z Hz; apply Hl; right; exact Hz|]. destruct (Hc y0 y H0 (Hl y (or_introl eq_refl))) as (m1 & H1). exists (Nat.max m m1). intros z [<-|Hz].
    - replace (Nat.max m m1) with ((Nat.max m m1 - m1) + m1)%nat by lia. apply (Reach_app _ _ _ y0); [apply Reach_stay, Hs|exact H1].
    - replace (Nat.max m m1) with ((Nat.max m m1 - m) + m)%nat by lia. apply (Reach_app _ _ _ y0); [apply Reach_stay, Hs|apply Hm, Hz]. }
  destruct (F Ys (fun y H => H)) as (m1 & H1). destruct (G Ys (fun y H => H)) as (m2 & H2). exists (m1 + (1 + m2))%nat. split; [lia|]. intros y y' Hy Hy'. apply (Reach_app _ _ _ y0); [apply H1, Hy|]. apply (Reach_app _ _ _ y0); [exact Hs|apply H2, Hy'].
Qed.
End Reaching.
