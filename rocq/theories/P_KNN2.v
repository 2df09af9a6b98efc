(** C39, when some neighbour distance is 0: points shared by the two data sets, and points repeated within one. *)
From Coq Require Import Reals Lra.
From Verif Require Import M_Base M_XReal M_MMD M_KNN S_Stats S_Distance S_MMD S_KNN L_PMC L_Stats L_Distance L_PosDef L_MMD L_KNN P_KNN.
Open Scope R_scope.

Definition fin_or (i : xr) (a : xr) : Prop := a = i \/ exists r, a = XR r.
Lemma xsum_some i l : i = XInf \/ i = XNInf -> Forall (fin_or i) l -> In i l -> xsum l = i.
Proof.
  intros Hi. unfold xsum.
  assert (A : forall l, Forall (fin_or i) l -> fold_left xadd l i = i). { clear l. induction l as [|x l IH]; intros H; [reflexivity|]. cbn [fold_left]. replace (xadd i x) with i; [exact (IH (Forall_inv_tail H))|]. destruct (Forall_inv H) as [-> | (r & ->)], Hi as [-> | ->]; reflexivity. }
  assert (B : forall l r, Forall (fin_or i) l -> In i l -> fold_left xadd l (XR r) = i); [|intros H1 H2; apply B; assumption].
  clear l. induction l as [|x l IH]; intros r H Hin; [contradiction|]. cbn [fold_left]. destruct (Forall_inv H) as [-> | (s & ->)].
  - replace (xadd (XR r) i) with i by (destruct Hi as [-> | ->]; reflexivity). apply A, (Forall_inv_tail H).
  - cbn [xadd]. apply IH; [exact (Forall_inv_tail H)|]. destruct Hin as [E|E]; [destruct Hi; congruence | exact E].
Qed.
Lemma nonneg_cases x : 0 <= x -> x = 0 \/ 0 < x. Proof. lra. Qed.
Lemma in_combine_other {A B} (l : list A) (l' : list B) a : length l = length l' -> In a l -> exists b, In (a, b) (combine l l').
Proof.
  revert l'. induction l as [|x l IH]; intros [|y l'] E Hi; try discriminate; [contradiction|]. destruct Hi as [->|Hi]; [exists y; left; reflexivity|]. destruct (IH l' ltac:(now injection E) Hi) as (b & Hb). exists b. right. exact Hb.
Qed.
Lemma in_combine_other_r {A B} (l : list A) (l' : list B) b : length l = length l' -> In b l' -> exists a, In (a, b) (combine l l').
Proof.
  revert l'. induction l as [|x l IH]; intros [|y l'] E Hi; try discriminate; [contradiction|]. destruct Hi as [->|Hi]; [exists x; left; reflexivity|]. destruct (IH l' ltac:(now injection E) Hi) as (a & Ha). exists a. right. exact Ha.
Qed.
Lemma xsum_map_some {A} i (f : A -> xr) l : i = XInf \/ i = XNInf -> (forall x, In x l -> fin_or i (f x)) -> (exists x, In x l /\ f x = i) -> xsum (map f l) = i.
Proof.
  intros Hi H (x & Hx & E). apply xsum_some; [exact Hi | apply Forall_map, Forall_forall, H | rewrite <- E; apply in_map, Hx].
Qed.
Lemma inv_pow_zero l a : Forall (fun d => 0 <= d) l -> In 0 l -> inv_pow_sum l a = XInf.
Proof.
  intros H H0. unfold inv_pow_sum. rewrite Forall_forall in H. assert (Z : xdiv (XR 1) (xpowr (XR 0) a) = XInf). { cbn. rewrite rsign_zero. cbn. rewrite rsign_zero, rsign_pos by lra. reflexivity. }
  apply xsum_map_some; [left; reflexivity | | exists 0; split; assumption].
  intros r Hr. destruct (nonneg_cases r (H r Hr)) as [->|Hp]; [left; exact Z|]. right. rewrite xpowr_pos by exact Hp. rewrite xdiv_fin by (apply Rgt_not_eq, exp_pos). eexists. reflexivity.
Qed.
Lemma log_quot_zero l l' : length l = length l' -> Forall (fun d => 0 <= d) l -> positive l' -> In 0 l -> xsum (map (fun ab => xlog (xdiv (XR (fst ab)) (XR (snd ab)))) (combine l l')) = XNInf.
Proof.
  intros E H P H0. unfold positive in P. rewrite Forall_forall in H, P. apply xsum_map_some; [right; reflexivity | |].
  - intros (a, b) Hi. cbn [fst snd]. pose proof (P b (in_combine_r _ _ _ _ Hi)). rewrite xdiv_fin by lra. destruct (nonneg_cases a (H a (in_combine_l _ _ _ _ Hi))) as [->|Ha]; cbn [xlog]; [left; unfold Rdiv; rewrite Rmult_0_l, rsign_zero; reflexivity|].
    right. rewrite rsign_pos by (apply Rdiv_lt_0_compat; assumption). eexists. reflexivity.
  - destruct (in_combine_other _ _ 0 E H0) as (b & Hb). exists (0, b). split; [exact Hb|]. cbn [fst snd]. pose proof (P b (in_combine_r _ _ _ _ Hb)). rewrite xdiv_fin by lra. cbn [xlog]. unfold Rdiv. rewrite Rmult_0_l, rsign_zero. reflexivity.
Qed.
Lemma log_quot_inf l l' : length l = length l' -> positive l -> Forall (fun d => 0 <= d) l' -> In 0 l' -> xsum (map (fun ab => xlog (xdiv (XR (fst ab)) (XR (snd ab)))) (combine l l')) = XInf.
Proof.
  intros E P H H0. unfold positive in P. rewrite Forall_forall in H, P. assert (Z : forall a, 0 < a -> xlog (xdiv (XR a) (XR 0)) = XInf). { intros a Ha. cbn. rewrite rsign_zero, rsign_pos by exact Ha. reflexivity. }
  apply xsum_map_some; [left; reflexivity | |].
  - intros (a, b) Hi. cbn [fst snd]. pose proof (P a (in_combine_l _ _ _ _ Hi)) as Ha. destruct (nonneg_cases b (H b (in_combine_r _ _ _ _ Hi))) as [->|Hb]; [left; apply Z, Ha|]. right. rewrite xdiv_fin by lra. cbn [xlog]. rewrite rsign_pos by (apply Rdiv_lt_0_compat; assumption). eexists. reflexivity.
  - destruct (in_combine_other_r _ _ 0 E H0) as (a & Ha). exists (a, 0). split; [exact Ha|]. apply Z, P, (in_combine_l _ _ _ _ Ha).
Qed.
Lemma hell_zero p n m rho nu : (2 <= n)%nat -> (1 <= m)%nat -> length rho = length nu -> positive rho -> Forall (fun d => 0 <= d) nu -> In 0 nu -> hell_one p n m rho nu = XNInf.
Proof.
  intros Hn Hm E P H H0. unfold hell_one. unfold positive in P. rewrite Forall_forall in H, P.
  assert (Z : forall a, 0 < a -> xpowr (xdiv (XR a) (XR 0)) (rn p / 2) = XInf). { intros a Ha. cbn. rewrite rsign_zero, rsign_pos by exact Ha. reflexivity. }
  rewrite (xsum_map_some XInf).
  - assert (Hc : 0 < 2 * sqrt (rn (n - 1) / rn m)). { apply Rmult_lt_0_compat; [lra|]. apply sqrt_lt_R0, Rdiv_lt_0_compat; apply lt_0_INR; lia. } cbn. rewrite rsign_pos by exact Hc. reflexivity.
  - left. reflexivity.
  - intros (a, b) Hi. cbn [fst snd]. pose proof (P a (in_combine_l _ _ _ _ Hi)) as Ha. destruct (nonneg_cases b (H b (in_combine_r _ _ _ _ Hi))) as [->|Hb]; [left; apply Z, Ha|]. right. rewrite xdiv_fin by lra. rewrite xpowr_pos by (apply Rdiv_lt_0_compat; assumption). eexists. reflexivity.
  - destruct (in_combine_other_r _ _ 0 E H0) as (a & Ha). exists (a, 0). split; [exact Ha|]. apply Z, P, (in_combine_l _ _ _ _ Ha).
Qed.

(** One point of the first data set with k copies in the second makes every one of the three estimates minus infinity, however different the other points are:
    such data are accepted with every threshold. *)
Theorem C39_shared_refuted k p gam s1 s2 rho nu rhoq : (1 <= p)%nat -> 0 < gam -> (1 <= k)%nat -> (k + 1 <= length s1)%nat -> (k + 1 <= length s2)%nat ->
  Neighbours (k + 1) s1 s1 rho -> Neighbours k s2 s1 nu -> Neighbours (k + 1) s2 s2 rhoq -> positive rho -> positive rhoq -> In 0 nu ->
  kl k p s1 s2 = Ok XNInf /\ gamma_q k p gam s1 s2 = Ok XNInf /\ hellinger k p s1 s2 = Ok XNInf.
Proof.
  intros Hp Hg Hk H1 H2 R1 R2 R3 P1 P3 Z. destruct (sizes_ok k s1 s2 Hk H1 H2) as (r1' & v1' & r2' & v2' & E1 & E2 & E3 & E4 & R1' & R2' & R3' & R4').
  pose proof (neigh_len _ _ _ _ R1) as L1. pose proof (neigh_len _ _ _ _ R2) as L2. pose proof (neigh_len _ _ _ _ R3) as L3. pose proof (neigh_nonneg _ _ _ _ R2) as NN.
  rewrite (neigh_unique _ _ _ _ _ R1' R1) in E1. rewrite (neigh_unique _ _ _ _ _ R2' R2) in E2. rewrite (neigh_unique _ _ _ _ _ R3' R3) in E3.
  assert (Hpw : forall x a, 0 < Rpower x a) by (intros; apply exp_pos). assert (Hn : 0 < INR (length s1)) by (apply lt_0_INR; lia). assert (Hm : 0 < INR (length s2)) by (apply lt_0_INR; lia).
  split; [|split].
  - unfold kl. rewrite E1, E2. cbn [rthen]. rewrite log_quot_zero by (first [congruence | assumption]). assert (0 < rn p / rn (length s1)) by (apply Rdiv_lt_0_compat; [apply lt_0_INR; lia | exact Hn]).
    assert (0 < rn (length s2) / rn (length s1 - 1)) by (apply Rdiv_lt_0_compat; apply lt_0_INR; lia). cbn. rewrite !rsign_pos by assumption. reflexivity.
  - unfold gamma_q. rewrite E1, E2, E3. cbn [rthen]. rewrite !inv_pow_fin by assumption. rewrite inv_pow_zero by assumption. unfold rn.
    rewrite !xdiv_fin by (apply Rgt_not_eq, Rmult_lt_0_compat; [assumption | apply Hpw]). set (A := total (map _ rho) / _). set (B := total (map _ rhoq) / _).
    assert (HB : 0 < B). { unfold B. apply Rdiv_lt_0_compat; [apply inv_pow_pos; intros ->; cbn in L3; lia | apply Rmult_lt_0_compat; [assumption | apply Hpw]]. } rewrite (xpowr_pos B) by exact HB. cbn [xmul].
    assert (F : xdiv XInf (XR (INR (length s1) * Rpower (INR (length s2)) gam)) = XInf). { cbn. rewrite rsign_pos by (apply Rmult_lt_0_compat; [assumption | apply Hpw]). reflexivity. } rewrite F. cbn [xpowr xdiv xlog]. rewrite rsign_zero. cbn.
    rewrite rsign_pos; [reflexivity|]. apply Rdiv_lt_0_compat; [lra|]. apply Rmult_lt_0_compat; lra.
  - rename v2' into nu'. rename R4' into R4. pose proof (neigh_len _ _ _ _ R4) as L4. pose proof (neigh_nonneg _ _ _ _ R4) as N4.
    assert (D : positive nu' \/ In 0 nu'). { destruct (in_dec Req_EM_T 0 nu') as [i|i]; [right; exact i|]. left. apply Forall_forall. intros x Hx. rewrite Forall_forall in N4. destruct (nonneg_cases x (N4 x Hx)) as [->|]; [contradiction | assumption]. }
    unfold hellinger. rewrite E1, E2, E3, E4. cbn [rthen].
    rewrite hell_zero by (first [congruence | assumption | lia]). destruct D as [D|D]; [rewrite hell_one_fin by assumption | rewrite hell_zero by (first [congruence | assumption | lia ])]; cbn; rewrite rsign_pos by lra; reflexivity.
Qed.

(** A point repeated k+1 times within the first data set, with no point shared: the KL and Gamma estimates are plus infinity (the data are rejected with every threshold),
    and the repeated points add nothing to the sum of the Hellinger estimate, which stays finite. *)
Definition pow0 (x a : R) : R := if Req_EM_T x 0 then 0 else Rpower x a.
Lemma hell_rep p n m rho nu : (1 <= p)%nat -> Forall (fun d => 0 <= d) rho -> positive nu -> hell_one p n m rho nu = XR (2 - 2 * sqrt (INR (n - 1) / INR m) * sum2 (fun r v => pow0 (r / v) (INR p / 2)) rho nu).
Proof.
  intros Hp Hr Hn. unfold hell_one. rewrite (xsum_map_fin _ (fun ab => pow0 (fst ab / snd ab) (INR p / 2))).
  - cbn [xmul xsub xopp xadd]. f_equal.
  - intros (a, b) Hi. cbn [fst snd]. unfold positive in *. rewrite Forall_forall in Hr, Hn. pose proof (Hr a (in_combine_l _ _ _ _ Hi)) as Ha. pose proof (Hn b (in_combine_r _ _ _ _ Hi)). rewrite xdiv_fin by lra. unfold pow0. destruct (nonneg_cases a Ha) as [->|Ha'].
    + replace (0 / b) with 0 by (unfold Rdiv; ring). destruct (Req_EM_T 0 0) as [_|n0]; [|contradiction]. cbn. rewrite rsign_zero. reflexivity.
    + assert (0 < a / b) by (apply Rdiv_lt_0_compat; assumption). destruct (Req_EM_T (a / b) 0); [lra|]. apply xpowr_pos. assumption.
Qed.
Theorem C39_repeated k p gam s1 s2 rho nu rhoq nu' : (1 <= p)%nat -> 0 < gam -> (1 <= k)%nat -> (k + 1 <= length s1)%nat -> (k + 1 <= length s2)%nat ->
  Neighbours (k + 1) s1 s1 rho -> Neighbours k s2 s1 nu -> Neighbours (k + 1) s2 s2 rhoq -> Neighbours k s1 s2 nu' -> positive nu ->
  (In 0 rho -> kl k p s1 s2 = Ok XInf) /\
  (In 0 rho \/ In 0 rhoq -> gamma_q k p gam s1 s2 = Ok XInf) /\
  (positive nu' -> let n := length s1 in let m := length s2 in let part r v := sum2 (fun a b => if Req_EM_T (a / b) 0 then 0 else Rpower (a / b) (INR p / 2)) r v in
     hellinger k p s1 s2 = Ok (XR (2 - (sqrt (INR (n - 1) / INR m) * part rho nu + sqrt (INR (m - 1) / INR n) * part rhoq nu')))).
Proof.
  intros Hp Hg Hk H1 H2 R1 R2 R3 R4 P2. destruct (sizes_ok k s1 s2 Hk H1 H2) as (r1' & v1' & r2' & v2' & E1 & E2 & E3 & E4 & R1' & R2' & R3' & R4').
  pose proof (neigh_len _ _ _ _ R1) as L1. pose proof (neigh_len _ _ _ _ R2) as L2. pose proof (neigh_len _ _ _ _ R3) as L3. pose proof (neigh_nonneg _ _ _ _ R1) as NN1. pose proof (neigh_nonneg _ _ _ _ R3) as NN3.
  rewrite (neigh_unique _ _ _ _ _ R1' R1) in E1. rewrite (neigh_unique _ _ _ _ _ R2' R2) in E2. rewrite (neigh_unique _ _ _ _ _ R3' R3) in E3. rewrite (neigh_unique _ _ _ _ _ R4' R4) in E4.
  assert (Hpw : forall x a, 0 < Rpower x a) by (intros; apply exp_pos). assert (Hn : 0 < INR (length s1)) by (apply lt_0_INR; lia). assert (Hm : 0 < INR (length s2)) by (apply lt_0_INR; lia).
  split; [|split].
  - intros Z. unfold kl. rewrite E1, E2. cbn [rthen]. rewrite log_quot_inf by (first [congruence | assumption]). assert (0 < rn p / rn (length s1)) by (apply Rdiv_lt_0_compat; [apply lt_0_INR; lia | exact Hn]).
    assert (0 < rn (length s2) / rn (length s1 - 1)) by (apply Rdiv_lt_0_compat; apply lt_0_INR; lia). cbn. rewrite !rsign_pos by assumption. reflexivity.
  - intros Z. unfold gamma_q. rewrite E1, E2, E3. cbn [rthen]. rewrite (inv_pow_fin nu) by assumption. unfold rn.
    rewrite (xdiv_fin (total _)) by (apply Rgt_not_eq, Rmult_lt_0_compat; [assumption | apply Hpw]). set (V := total (map _ nu) / _). assert (HV : 0 < V). { unfold V. apply Rdiv_lt_0_compat; [apply inv_pow_pos; intros ->; cbn in L2; lia | apply Rmult_lt_0_compat; [assumption | apply Hpw]]. } rewrite (xpowr_pos V) by exact HV.
    set (c1 := INR (length s1) * Rpower (INR (length s1 - 1)) gam). set (c3 := INR (length s2) * Rpower (INR (length s2 - 1)) gam). assert (C1 : 0 < c1) by (apply Rmult_lt_0_compat; [assumption | apply Hpw]). assert (C3 : 0 < c3) by (apply Rmult_lt_0_compat; [assumption | apply Hpw]).
    assert (Q : forall l c, l <> [] -> Forall (fun d => 0 <= d) l -> 0 < c -> (In 0 l /\ xdiv (inv_pow_sum l (INR p * gam)) (XR c) = XInf) \/ (~ In 0 l /\ exists r, 0 < r /\ xdiv (inv_pow_sum l (INR p * gam)) (XR c) = XR r)).
    { intros l c Hl Hnn Hc. destruct (in_dec Req_EM_T 0 l) as [i|i]; [left; split; [exact i|]; rewrite inv_pow_zero by assumption; cbn; rewrite rsign_pos by exact Hc; reflexivity|].
      right. split; [exact i|]. assert (positive l). { apply Forall_forall. intros x Hx. rewrite Forall_forall in Hnn. destruct (nonneg_cases x (Hnn x Hx)) as [->|]; [contradiction | assumption]. }
      rewrite inv_pow_fin by assumption. rewrite xdiv_fin by lra. eexists. split; [|reflexivity]. apply Rdiv_lt_0_compat; [apply inv_pow_pos, Hl | exact Hc]. }
    assert (N1 : rho <> []) by (intros ->; cbn in L1; lia). assert (N3 : rhoq <> []) by (intros ->; cbn in L3; lia).
    assert (Hk0 : 0 < 1 / (gam * (gam + 1))) by (apply Rdiv_lt_0_compat; [lra|]; apply Rmult_lt_0_compat; lra).
    destruct (Q rho c1 N1 NN1 C1) as [[_ ->] | [i1 (x & Hx & ->)]], (Q rhoq c3 N3 NN3 C3) as [[_ ->] | [i3 (y & Hy & ->)]].
    + cbn. rewrite (rsign_pos (Rpower V _)) by apply Hpw. cbn. rewrite rsign_pos by exact Hk0. reflexivity.
    + cbn. rewrite (rsign_pos y) by exact Hy. cbn. rewrite (rsign_pos (Rpower y gam)) by apply Hpw. cbn. rewrite (rsign_pos (Rpower V _)) by apply Hpw. cbn. rewrite rsign_pos by exact Hk0. reflexivity.
    + cbn. rewrite (rsign_pos x) by exact Hx. cbn. rewrite (rsign_pos (Rpower V _)) by apply Hpw. cbn. rewrite rsign_pos by exact Hk0. reflexivity.
    + destruct Z; contradiction.
  - intros P4 n m part. unfold hellinger. rewrite E1, E2, E3, E4. cbn [rthen]. rewrite !hell_rep by assumption. cbn [xadd xmul]. do 2 f_equal. fold n m. unfold part, pow0. lra.
Qed.
Print Assumptions C39_shared_refuted.
Print Assumptions C39_repeated.

(** Cases: {0, 1} against {0, 100} share the point 0; {0, 0} against {1, 2}. *)
Ltac pos2 := unfold positive; constructor; [lra | constructor; [lra | constructor]].
Example C39_shared_case : kl 1 1 [[0]; [1]] [[0]; [100]] = Ok XNInf /\ gamma_q 1 1 1 [[0]; [1]] [[0]; [100]] = Ok XNInf /\ hellinger 1 1 [[0]; [1]] [[0]; [100]] = Ok XNInf.
Proof.
  assert (R1 : Neighbours (1 + 1) [[0]; [1]] [[0]; [1]] [1; 1]) by nb. assert (R2 : Neighbours 1 [[0]; [100]] [[0]; [1]] [0; 1]) by nb. assert (R3 : Neighbours (1 + 1) [[0]; [100]] [[0]; [100]] [100; 100]) by nb.
  assert (P1 : positive [1; 1]) by pos2. assert (P3 : positive [100; 100]) by pos2. assert (Z : In 0 [0; 1]) by (left; reflexivity).
  destruct (C39_shared_refuted 1 1 1 [[0]; [1]] [[0]; [100]] _ _ _ (le_n 1) ltac:(lra) (le_n 1) (le_n 2) (le_n 2) R1 R2 R3 P1 P3 Z) as (A & B & C). split; [exact A | split; [exact B | exact C]].
Qed.
Example C39_repeated_case : kl 1 1 [[0]; [0]] [[1]; [2]] = Ok XInf /\ gamma_q 1 1 1 [[0]; [0]] [[1]; [2]] = Ok XInf /\ exists r, hellinger 1 1 [[0]; [0]] [[1]; [2]] = Ok (XR r).
Proof.
  assert (R1 : Neighbours (1 + 1) [[0]; [0]] [[0]; [0]] [0; 0]) by nb. assert (R2 : Neighbours 1 [[1]; [2]] [[0]; [0]] [1; 1]) by nb. assert (R3 : Neighbours (1 + 1) [[1]; [2]] [[1]; [2]] [1; 1]) by nb. assert (R4 : Neighbours 1 [[0]; [0]] [[1]; [2]] [1; 2]) by nb.
  assert (P2 : positive [1; 1]) by pos2. assert (P4 : positive [1; 2]) by pos2. assert (Z : In 0 [0; 0]) by (left; reflexivity).
  destruct (C39_repeated 1 1 1 [[0]; [0]] [[1]; [2]] _ _ _ _ (le_n 1) ltac:(lra) (le_n 1) (le_n 2) (le_n 2) R1 R2 R3 R4 P2) as (A & B & C).
  split; [exact (A Z) | split; [exact (B (or_introl Z)) | eexists; exact (C P4)]].
Qed.
