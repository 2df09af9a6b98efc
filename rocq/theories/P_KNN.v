(** C39: nearest-neighbour divergences and classifier distances; C52: fold labels. *)
From Coq Require Import Reals Lra Lia Permutation.
From Verif Require Import M_Base M_XReal M_MMD M_KNN S_Stats S_Distance S_MMD S_KNN L_PMC L_Stats L_Distance L_PosDef L_MMD L_KNN.
Open Scope R_scope.

(** The nearest-neighbour distances: the k-th smallest Euclidean distance; refused exactly for k = 0, k larger than the number of points, or nothing to query. *)
Theorem C39_neighbours k pts xs :
  (forall ds, kneigh k pts xs = Ok ds -> Neighbours k pts xs ds) /\ ((exists ds, kneigh k pts xs = Ok ds) <-> (1 <= k <= length pts)%nat /\ xs <> []) /\
  (forall e, kneigh k pts xs = Err e -> e = ValueError).
Proof.
  split; [|split].
  - intros ds H. apply (kneigh_iff k pts xs ds H).
  - split; [intros (ds & H); destruct (kneigh_iff k pts xs ds H) as (H1 & H2 & _); split; assumption | intros [H1 H2]; destruct (kneigh_ok k pts xs H1 H2) as (ds & E & _); exists ds; exact E].
  - intros e H. unfold kneigh in H. destruct (_ || _)%bool in H; [congruence | discriminate].
Qed.

Lemma sizes_ok k s1 s2 : (1 <= k)%nat -> (k + 1 <= length s1)%nat -> (k + 1 <= length s2)%nat ->
  exists r1 v1 r2 v2, kneigh (k + 1) s1 s1 = Ok r1 /\ kneigh k s2 s1 = Ok v1 /\ kneigh (k + 1) s2 s2 = Ok r2 /\ kneigh k s1 s2 = Ok v2 /\
    Neighbours (k + 1) s1 s1 r1 /\ Neighbours k s2 s1 v1 /\ Neighbours (k + 1) s2 s2 r2 /\ Neighbours k s1 s2 v2.
Proof.
  intros Hk H1 H2. assert (N1 : s1 <> []) by (intros ->; cbn in H1; lia). assert (N2 : s2 <> []) by (intros ->; cbn in H2; lia).
  destruct (kneigh_ok (k + 1) s1 s1 ltac:(lia) N1) as (r1 & E1 & R1). destruct (kneigh_ok k s2 s1 ltac:(lia) N1) as (v1 & E2 & R2). destruct (kneigh_ok (k + 1) s2 s2 ltac:(lia) N2) as (r2 & E3 & R3). destruct (kneigh_ok k s1 s2 ltac:(lia) N2) as (v2 & E4 & R4).
  exists r1, v1, r2, v2. repeat (split; [assumption|]). assumption.
Qed.

(** Which data sets are refused: fewer than k+1 points (k points suffice in the second data set for KL), k = 0. *)
Theorem C39_refused k p gam s1 s2 :
  ((exists v, kl k p s1 s2 = Ok v) <-> (1 <= k)%nat /\ (k + 1 <= length s1)%nat /\ (k <= length s2)%nat) /\
  ((exists v, gamma_q k p gam s1 s2 = Ok v) <-> (1 <= k)%nat /\ (k + 1 <= length s1)%nat /\ (k + 1 <= length s2)%nat) /\
  ((exists v, hellinger k p s1 s2 = Ok v) <-> (1 <= k)%nat /\ (k + 1 <= length s1)%nat /\ (k + 1 <= length s2)%nat) /\
  (forall e, kl k p s1 s2 = Err e \/ gamma_q k p gam s1 s2 = Err e \/ hellinger k p s1 s2 = Err e -> e = ValueError).
Proof.
  pose proof (C39_neighbours (k + 1) s1 s1) as (_ & [A1 A2] & A3). pose proof (C39_neighbours k s2 s1) as (_ & [B1 B2] & B3). pose proof (C39_neighbours (k + 1) s2 s2) as (_ & [C1 C2] & C3). pose proof (C39_neighbours k s1 s2) as (_ & [D1 D2] & D3).
  assert (N : forall s : list vec, (1 <= length s)%nat -> s <> []) by (intros [|]; cbn; [lia | discriminate]). unfold kl, gamma_q, hellinger. split; [|split; [|split]].
  - split.
    + intros (v & H). destruct (kneigh (k + 1) s1 s1) as [r1|]; [|discriminate]. cbn [rthen] in H. destruct (kneigh k s2 s1) as [v1|]; [|discriminate]. destruct (A1 (ex_intro _ _ eq_refl)). destruct (B1 (ex_intro _ _ eq_refl)). lia.
    + intros (H1 & H2 & H3). destruct A2 as (r1 & ->); [split; [lia | apply N; lia]|]. destruct B2 as (v1 & ->); [split; [lia | apply N; lia]|]. eexists. reflexivity.
  - split.
    + intros (v & H). destruct (kneigh (k + 1) s1 s1) as [r1|]; [|discriminate]. cbn [rthen] in H. destruct (kneigh k s2 s1) as [v1|]; [|discriminate]. cbn [rthen] in H. destruct (kneigh (k + 1) s2 s2) as [r2|]; [|discriminate]. destruct (A1 (ex_intro _ _ eq_refl)). destruct (B1 (ex_intro _ _ eq_refl)). destruct (C1 (ex_intro _ _ eq_refl)). lia.
    + intros (H1 & H2 & H3). destruct A2 as (r1 & ->); [split; [lia | apply N; lia]|]. destruct B2 as (v1 & ->); [split; [lia | apply N; lia]|]. destruct C2 as (r2 & ->); [split; [lia | apply N; lia]|]. eexists. reflexivity.
  - split.
    + intros (v & H). destruct (kneigh (k + 1) s1 s1) as [r1|]; [|discriminate]. cbn [rthen] in H. destruct (kneigh k s2 s1) as [v1|]; [|discriminate]. cbn [rthen] in H. destruct (kneigh (k + 1) s2 s2) as [r2|]; [|discriminate]. destruct (A1 (ex_intro _ _ eq_refl)). destruct (B1 (ex_intro _ _ eq_refl)). destruct (C1 (ex_intro _ _ eq_refl)). lia.
    + intros (H1 & H2 & H3). destruct A2 as (r1 & ->); [split; [lia | apply N; lia]|]. destruct B2 as (v1 & ->); [split; [lia | apply N; lia]|]. destruct C2 as (r2 & ->); [split; [lia | apply N; lia]|]. destruct D2 as (v2 & ->); [split; [lia | apply N; lia]|]. eexists. reflexivity.
  - intros e H. destruct (kneigh (k + 1) s1 s1) as [r1|e1]; cbn [rthen] in H; [|assert (e1 = ValueError) by (apply A3; reflexivity); intuition congruence].
    destruct (kneigh k s2 s1) as [v1|e2]; cbn [rthen] in H; [|assert (e2 = ValueError) by (apply B3; reflexivity); intuition congruence].
    destruct (kneigh (k + 1) s2 s2) as [r2|e3]; cbn [rthen] in H; [|assert (e3 = ValueError) by (apply C3; reflexivity); intuition congruence].
    destruct (kneigh k s1 s2) as [v2|e4]; cbn [rthen] in H; [|assert (e4 = ValueError) by (apply D3; reflexivity); intuition congruence]. intuition congruence.
Qed.

(** Values when no neighbour distance is 0. *)
Theorem C39_kl k p s1 s2 rho nu : (1 <= k)%nat -> (k + 1 <= length s1)%nat -> (k <= length s2)%nat -> Neighbours (k + 1) s1 s1 rho -> Neighbours k s2 s1 nu -> positive rho -> positive nu ->
  kl k p s1 s2 = Ok (XR (INR p / INR (length s1) * sum2 (fun v r => ln (v / r)) nu rho + ln (INR (length s2) / INR (length s1 - 1)))).
Proof.
  intros Hk H1 H2 R1 R2 P1 P2. unfold kl. assert (N1 : s1 <> []) by (intros ->; cbn in H1; lia).
  destruct (kneigh_ok (k + 1) s1 s1 ltac:(lia) N1) as (r1 & E1 & R1'). destruct (kneigh_ok k s2 s1 ltac:(lia) N1) as (v1 & E2 & R2'). rewrite E1, E2. rewrite (neigh_unique _ _ _ _ _ R1' R1), (neigh_unique _ _ _ _ _ R2' R2). cbn [rthen].
  rewrite (xsum_map_fin _ (fun ab => ln (fst ab / snd ab))).
  - cbn [xmul]. unfold rn. assert (0 < INR (length s2) / INR (length s1 - 1)) by (apply Rdiv_lt_0_compat; apply lt_0_INR; lia). cbn [xlog]. rewrite rsign_pos by assumption. reflexivity.
  - intros (a, b) Hi. cbn [fst snd]. unfold positive in *. rewrite Forall_forall in P1, P2. pose proof (P2 a (in_combine_l _ _ _ _ Hi)). pose proof (P1 b (in_combine_r _ _ _ _ Hi)). rewrite xdiv_fin by lra. cbn [xlog]. rewrite rsign_pos by (apply Rdiv_lt_0_compat; assumption). reflexivity.
Qed.
Theorem C39_gamma k p gam s1 s2 rho nu rhoq : 0 < gam -> (1 <= k)%nat -> (k + 1 <= length s1)%nat -> (k + 1 <= length s2)%nat -> Neighbours (k + 1) s1 s1 rho -> Neighbours k s2 s1 nu -> Neighbours (k + 1) s2 s2 rhoq ->
  positive rho -> positive nu -> positive rhoq ->
  let mass ds n c := total (map (fun r => / Rpower r (INR p * gam)) ds) / (INR n * Rpower (INR c) gam) in
  let n := length s1 in let m := length s2 in
  gamma_q k p gam s1 s2 = Ok (XR (1 / (gam * (gam + 1)) * ln (mass rho n (n - 1)%nat * Rpower (mass rhoq m (m - 1)%nat) gam / Rpower (mass nu n m) (1 + gam)))).
Proof.
  intros Hg Hk H1 H2 R1 R2 R3 P1 P2 P3 mass n m. destruct (sizes_ok k s1 s2 Hk H1 H2) as (r1 & v1 & r2 & v2 & E1 & E2 & E3 & _ & R1' & R2' & R3' & _). unfold gamma_q. rewrite E1, E2, E3.
  rewrite (neigh_unique _ _ _ _ _ R1' R1), (neigh_unique _ _ _ _ _ R2' R2), (neigh_unique _ _ _ _ _ R3' R3). cbn [rthen]. unfold rn. rewrite !inv_pow_fin by assumption.
  assert (Hpw : forall x a, 0 < Rpower x a) by (intros; apply exp_pos). assert (Hn : 0 < INR (length s1)) by (apply lt_0_INR; lia). assert (Hm : 0 < INR (length s2)) by (apply lt_0_INR; lia).
  rewrite !xdiv_fin by (apply Rgt_not_eq, Rmult_lt_0_compat; [assumption | apply Hpw]). fold n m. fold (mass rho n (n - 1)%nat) (mass nu n m) (mass rhoq m (m - 1)%nat).
  assert (Hmass : forall ds a c, ds <> [] -> 0 < INR a -> 0 < mass ds a c). { intros ds a c Hds Ha. unfold mass. apply Rdiv_lt_0_compat; [apply inv_pow_pos, Hds | apply Rmult_lt_0_compat; [exact Ha | apply Hpw]]. }
  assert (Nr : rho <> []) by (apply neigh_len in R1; intros ->; cbn in R1; lia). assert (Nv : nu <> []) by (apply neigh_len in R2; intros ->; cbn in R2; lia). assert (Nq : rhoq <> []) by (apply neigh_len in R3; intros ->; cbn in R3; lia).
  rewrite !xpowr_pos by (apply Hmass; assumption). cbn [xmul]. rewrite xdiv_fin by (apply Rgt_not_eq, Hpw). cbn [xlog].
  rewrite rsign_pos; [reflexivity|]. apply Rdiv_lt_0_compat; [apply Rmult_lt_0_compat; [apply Hmass; assumption | apply Hpw] | apply Hpw].
Qed.
Theorem C39_hellinger k p s1 s2 r1 v1 r2 v2 : (1 <= k)%nat -> (k + 1 <= length s1)%nat -> (k + 1 <= length s2)%nat -> Neighbours (k + 1) s1 s1 r1 -> Neighbours k s2 s1 v1 -> Neighbours (k + 1) s2 s2 r2 -> Neighbours k s1 s2 v2 ->
  positive r1 -> positive v1 -> positive r2 -> positive v2 ->
  let n := length s1 in let m := length s2 in let part r v := sum2 (fun a b => Rpower (a / b) (INR p / 2)) r v in
  hellinger k p s1 s2 = Ok (XR (2 - (sqrt (INR (n - 1) / INR m) * part r1 v1 + sqrt (INR (m - 1) / INR n) * part r2 v2))).
Proof.
  intros Hk H1 H2 R1 R2 R3 R4 P1 P2 P3 P4 n m part. destruct (sizes_ok k s1 s2 Hk H1 H2) as (r1' & v1' & r2' & v2' & E1 & E2 & E3 & E4 & R1' & R2' & R3' & R4'). unfold hellinger. rewrite E1, E2, E3, E4. cbn [rthen].
  rewrite (neigh_unique _ _ _ _ _ R1' R1), (neigh_unique _ _ _ _ _ R2' R2), (neigh_unique _ _ _ _ _ R3' R3), (neigh_unique _ _ _ _ _ R4' R4). rewrite !hell_one_fin by assumption. cbn [xadd xmul]. do 2 f_equal. fold n m. unfold part. lra.
Qed.

(** The squared Hellinger estimate never exceeds its declared maximum 2 (it may be undefined or minus infinity) and does not depend on the order of its arguments. *)
Theorem C39_hellinger_range k p s1 s2 v : hellinger k p s1 s2 = Ok v -> v = XNaN \/ v = XNInf \/ exists r, v = XR r /\ r <= hellinger_max.
Proof.
  unfold hellinger. intros H. destruct (kneigh (k + 1) s1 s1) as [r1|] eqn:E1; [|discriminate]. cbn [rthen] in H. destruct (kneigh k s2 s1) as [v1|] eqn:E2; [|discriminate]. cbn [rthen] in H. destruct (kneigh (k + 1) s2 s2) as [r2|] eqn:E3; [|discriminate]. cbn [rthen] in H. destruct (kneigh k s1 s2) as [v2|] eqn:E4; [|discriminate]. cbn [rthen] in H. injection H as <-.
  apply kneigh_iff in E1, E2, E3, E4. destruct E1 as (_ & _ & E1), E2 as (_ & _ & E2), E3 as (_ & _ & E3), E4 as (_ & _ & E4). apply neigh_nonneg in E1, E2, E3, E4. apply half_mean_range; apply hell_one_range; assumption.
Qed.
Lemma xadd_comm a b : xadd a b = xadd b a.
Proof. destruct a, b; cbn; try reflexivity. f_equal. ring. Qed.
Theorem C39_hellinger_symmetric k p s1 s2 : hellinger k p s1 s2 = hellinger k p s2 s1.
Proof.
  destruct (proj1 (proj2 (proj2 (C39_refused k p 1 s1 s2)))) as []. pose proof (C39_refused k p 1 s1 s2) as (_ & _ & [A1 A2] & A3). pose proof (C39_refused k p 1 s2 s1) as (_ & _ & [B1 B2] & B3).
  destruct (hellinger k p s1 s2) as [v|e] eqn:E1; destruct (hellinger k p s2 s1) as [w|e'] eqn:E2.
  - unfold hellinger in E1, E2. destruct (kneigh (k + 1) s1 s1) as [r1|]; [|discriminate]. destruct (kneigh k s2 s1) as [v1|]; [|discriminate]. destruct (kneigh (k + 1) s2 s2) as [r2|]; [|discriminate]. destruct (kneigh k s1 s2) as [v2|]; [|discriminate]. cbn [rthen] in E1, E2. rewrite xadd_comm in E1. congruence.
  - destruct (B2 ltac:(destruct (A1 (ex_intro _ _ eq_refl)) as (? & ? & ?); tauto)). discriminate.
  - destruct (A2 ltac:(destruct (B1 (ex_intro _ _ eq_refl)) as (? & ? & ?); tauto)). discriminate.
  - rewrite (A3 e), (B3 e') by tauto. reflexivity.
Qed.

(** False: the object declares its estimate to be always positive, but it is negative for two small interleaved samples,
    and minus infinity for a sample of distinct points compared with itself (k = 1); so is the KL estimate. *)
Lemma vd1 a b : vdist [a] [b] = Rabs (a - b).
Proof. rewrite vdist_sq, sq_cons. unfold sq. cbn [combine map]. change (total []) with 0. rewrite Rplus_0_r. rewrite <- Rsqr_pow2. apply sqrt_Rsqr_abs. Qed.
Ltac kth := split; [cbn; first [left; lra | right; left; lra] | unfold below, upto; cbn [filter]; repeat (destruct (Rlt_dec _ _); try lra); repeat (destruct (Rle_dec _ _); try lra); cbn; lia].
Ltac absv := repeat match goal with |- context [Rabs ?e] => first [replace (Rabs e) with e by (rewrite Rabs_pos_eq; lra) | replace (Rabs e) with (- e) by (rewrite Rabs_left1; lra)] end.
Ltac nb := unfold Neighbours; constructor; [|constructor; [|constructor]]; cbn [map]; rewrite !vd1; absv; kth.
Theorem C39_hellinger_refuted : hellinger_always_positive = true /\ exists r, hellinger 1 1 [[0]; [2]] [[/2]; [3/2]] = Ok (XR r) /\ r < 0.
Proof.
  split; [reflexivity|]. eexists. split.
  - apply (C39_hellinger 1 1 [[0]; [2]] [[/2]; [3/2]] [2; 2] [/2; /2] [1; 1] [/2; /2]); cbn [length]; try lia; try (repeat constructor; lra).
    + nb.
    + nb.
    + nb.
    + nb.
  - cbn [length Nat.sub]. unfold sum2. cbn [combine map fst snd]. unfold total. cbn [fold_right INR]. replace (2 / / 2) with (2 * 2) by field. replace (1 / 2) with (/ 2) by field. replace (1 / (1 + 1)) with (/ 2) by field.
    replace (1 / / 2) with 2 by field. rewrite !Rpower_sqrt by lra. rewrite sqrt_square by lra. assert (H : / 2 <= sqrt (/ 2)). { rewrite <- (sqrt_square (/ 2)) at 1 by lra. apply sqrt_le_1; lra. }
    assert (H2 : 0 < sqrt 2) by (apply sqrt_lt_R0; lra). assert (H3 : 0 < sqrt (/ 2)) by lra. pose proof (Rmult_lt_0_compat _ _ H3 H2). lra.
Qed.
Lemma nu_self s : s <> [] -> Neighbours 1 s s (map (fun _ => 0) s).
Proof.
  intros Hs. assert (G : forall l, incl l s -> Neighbours 1 s l (map (fun _ => 0) l)); [|apply G, incl_refl]. induction l as [|x l IH]; intros Hl; [constructor|]. constructor; [|apply IH; intros y Hy; apply Hl; right; exact Hy].
  assert (Hx : In x s) by (apply Hl; left; reflexivity). assert (Hz : vdist x x = 0) by (rewrite vdist_sq, (proj2 (sq_zero x x eq_refl) eq_refl); apply sqrt_0).
  split; [rewrite <- Hz; apply in_map, Hx|]. unfold below, upto. split.
  - assert (E : filter (fun d => if Rlt_dec d 0 then true else false) (map (vdist x) s) = []); [|rewrite E; cbn; lia]. clear. induction s as [|y s IH]; [reflexivity|]. cbn [map filter]. destruct (Rlt_dec (vdist x y) 0) as [H|_]; [|exact IH]. rewrite vdist_sq in H. pose proof (sqrt_pos (sq x y)). lra.
  - destruct (filter (fun d => if Rle_dec d 0 then true else false) (map (vdist x) s)) eqn:E; [|cbn; lia]. exfalso. assert (Hi : In 0 (filter (fun d => if Rle_dec d 0 then true else false) (map (vdist x) s))); [|rewrite E in Hi; exact Hi].
    apply filter_In. split; [rewrite <- Hz; apply in_map, Hx|]. destruct (Rle_dec 0 0); [reflexivity | lra].
Qed.
Lemma xsum_ninf l : l <> [] -> Forall (fun a => a = XNInf) l -> xsum l = XNInf.
Proof.
  intros Hn H. destruct l as [|x l]; [congruence|]. unfold xsum. cbn [fold_left]. rewrite (Forall_inv H). cbn [xadd]. apply Forall_inv_tail in H. clear Hn. induction H as [|y l -> H IH]; [reflexivity|]. cbn [fold_left xadd]. exact IH.
Qed.
Lemma xsum_inf l : l <> [] -> Forall (fun a => a = XInf) l -> xsum l = XInf.
Proof.
  intros Hn H. destruct l as [|x l]; [congruence|]. unfold xsum. cbn [fold_left]. rewrite (Forall_inv H). cbn [xadd]. apply Forall_inv_tail in H. clear Hn. induction H as [|y l -> H IH]; [reflexivity|]. cbn [fold_left xadd]. exact IH.
Qed.
Theorem C39_self_refuted p s rho : (1 <= p)%nat -> (2 <= length s)%nat -> Neighbours 2 s s rho -> positive rho -> kl 1 p s s = Ok XNInf /\ hellinger 1 p s s = Ok XNInf.
Proof.
  intros Hp Hs HR HP. assert (Ns : s <> []) by (intros ->; cbn in Hs; lia). destruct (sizes_ok 1 s s ltac:(lia) ltac:(lia) ltac:(lia)) as (r1 & v1 & r2 & v2 & E1 & E2 & _ & _ & R1 & R2 & _ & _).
  pose proof (neigh_unique _ _ _ _ _ R1 HR) as <-. pose proof (neigh_unique _ _ _ _ _ R2 (nu_self s Ns)) as ->. assert (Hl : length r1 = length s) by (eapply neigh_len, R1).
  assert (Hc : 0 < INR p / INR (length s)) by (apply Rdiv_lt_0_compat; apply lt_0_INR; lia). unfold positive in HP. rewrite Forall_forall in HP.
  assert (Hz : forall a l, In a (map (fun _ : list R => 0) l) -> a = 0) by (intros a l Ha; apply in_map_iff in Ha; destruct Ha as (x & <- & _); reflexivity).
  assert (Nc : forall (l l' : list R), length l = length l' -> l <> [] -> combine l l' <> []) by (intros [|] [|]; cbn; intros; congruence). assert (Nr : r1 <> []) by (intros ->; cbn in Hl; lia). assert (Nm : map (fun _ : list R => 0) s <> []) by (destruct s; [congruence | discriminate]).
  split.
  - unfold kl. change (1 + 1)%nat with 2%nat in *. rewrite E1, E2. cbn [rthen]. rewrite xsum_ninf.
    + unfold rn. cbn [xmul xsgn]. rewrite rsign_pos by exact Hc. cbn [xorb xneg xadd]. cbn [xlog]. rewrite rsign_pos by (apply Rdiv_lt_0_compat; apply lt_0_INR; lia). reflexivity.
    + intros E. apply map_eq_nil in E. revert E. apply Nc; [rewrite map_length; symmetry; exact Hl | exact Nm].
    + apply Forall_map, Forall_forall. intros (a, b) Hi. cbn [fst snd]. rewrite (Hz a s (in_combine_l _ _ _ _ Hi)). pose proof (HP b (in_combine_r _ _ _ _ Hi)). rewrite xdiv_fin by lra. unfold Rdiv. rewrite Rmult_0_l. cbn [xlog]. rewrite rsign_zero. reflexivity.
  - unfold hellinger. change (1 + 1)%nat with 2%nat in *. rewrite E1, E2. cbn [rthen]. assert (Eh : hell_one p (length s) (length s) r1 (map (fun _ => 0) s) = XNInf).
    { unfold hell_one. rewrite xsum_inf.
      - unfold rn. cbn [xmul xsgn]. rewrite rsign_pos; [reflexivity|]. assert (0 < sqrt (INR (length s - 1) / INR (length s))); [|lra]. apply sqrt_lt_R0. apply Rdiv_lt_0_compat; apply lt_0_INR; lia.
      - intros E. apply map_eq_nil in E. revert E. apply Nc; [rewrite map_length; exact Hl | exact Nr].
      - apply Forall_map, Forall_forall. intros (a, b) Hi. cbn [fst snd]. rewrite (Hz b s (in_combine_r _ _ _ _ Hi)). pose proof (HP a (in_combine_l _ _ _ _ Hi)). unfold xdiv. rewrite rsign_zero, rsign_pos by assumption. reflexivity. }
    rewrite Eh. cbn [xadd xmul xsgn]. rewrite rsign_pos by lra. reflexivity.
Qed.

(** LogReg: 2 * (fraction of correctly classified points) - 1, which lies in [-1, 1]; not negative when the classifier is at least as good on the training set
    as answering always the same label. *)
Theorem C39_logreg fit s1 s2 pred : s1 <> [] -> s2 <> [] -> fit (s1 ++ s2) (labels (length s1) (length s2)) = pred -> length pred = (length s1 + length s2)%nat ->
  let right := (count_occ Bool.bool_dec (firstn (length s1) pred) false + count_occ Bool.bool_dec (skipn (length s1) pred) true)%nat in
  exists d, logreg fit s1 s2 = Ok d /\ d = 2 * INR right / INR (length s1 + length s2) - 1 /\ -1 <= d <= logreg_max /\
    ((length s1 <= right)%nat -> (length s2 <= right)%nat -> 0 <= d).
Proof.
  intros N1 N2 Hf Hl right. unfold logreg. destruct (Nat.eqb_spec (length s1) 0); [destruct s1; [congruence | discriminate]|]. destruct (Nat.eqb_spec (length s2) 0); [destruct s2; [congruence | discriminate]|]. cbn [orb]. rewrite Hf.
  set (lab := labels (length s1) (length s2)). assert (Hlab : length lab = (length s1 + length s2)%nat) by (unfold lab, labels; rewrite app_length, !repeat_length; reflexivity).
  assert (Hr : length (filter (fun ab => Bool.eqb (fst ab) (snd ab)) (combine pred lab)) = right).
  { unfold right, lab, labels. assert (G : forall b (l : list bool), length (filter (fun ab => Bool.eqb (fst ab) (snd ab)) (combine l (repeat b (length l)))) = count_occ Bool.bool_dec l b).
    { intros b l. induction l as [|x l IH]; [reflexivity|]. cbn [length repeat combine filter fst snd count_occ]. destruct (Bool.bool_dec x b) as [->|Hne]; [rewrite Bool.eqb_reflx; cbn [length]; rewrite IH; reflexivity|]. destruct x, b; cbn; try congruence. }
    assert (Ga : forall (l1 l2 : list bool) m1 m2, length l1 = length m1 -> combine (l1 ++ l2) (m1 ++ m2) = combine l1 m1 ++ combine l2 m2 :> list (bool * bool)). { induction l1 as [|x l1 IH]; intros l2 [|y m1] m2 H; try discriminate; [reflexivity|]. cbn. rewrite IH by (cbn in H; lia). reflexivity. }
    rewrite <- (firstn_skipn (length s1) pred) at 1. rewrite Ga by (rewrite firstn_length, repeat_length, Hl; lia). rewrite filter_app, app_length. f_equal.
    - rewrite <- (G false (firstn (length s1) pred)). do 4 f_equal. rewrite firstn_length, Hl. lia.
    - rewrite <- (G true (skipn (length s1) pred)). do 4 f_equal. rewrite skipn_length, Hl. lia. }
  assert (Hpos : 0 < INR (length s1 + length s2)) by (apply lt_0_INR; lia). assert (Hacc : accuracy pred lab = INR right / INR (length s1 + length s2)) by (unfold accuracy, rn; rewrite Hr, Hlab; reflexivity).
  eexists. split; [reflexivity|]. rewrite Hacc. split; [field; lra|]. split.
  - assert (Nl : lab <> []) by (intros E; rewrite E in Hlab; cbn in Hlab; lia). pose proof (accuracy_range pred lab Nl) as Hacc'. rewrite Hacc in Hacc'. unfold logreg_max. lra.
  - intros Ha Hb. assert (2 * INR right >= INR (length s1 + length s2)). { rewrite plus_INR. apply le_INR in Ha, Hb. lra. }
    assert (/ 2 <= INR right / INR (length s1 + length s2)); [|lra]. apply (Rmult_le_reg_r (INR (length s1 + length s2))); [exact Hpos|]. unfold Rdiv. rewrite Rmult_assoc, Rinv_l by lra. lra.
Qed.
Theorem C39_penlogreg score s1 s2 :
  (length s1 <> length s2 -> penlogreg score s1 s2 = Err RuntimeError) /\
  (length s1 = length s2 -> forall c, score (s1 ++ s2) (labels (length s1) (length s1)) (groups 10 (length s1)) = c -> 0 <= c <= 1 -> exists d, penlogreg score s1 s2 = Ok d /\ d = 2 * c - 1 /\ -1 <= d <= logreg_max).
Proof.
  unfold penlogreg. split.
  - intros H. destruct (Nat.eqb_spec (length s2) (length s1)); [congruence | reflexivity].
  - intros H c Hc Hr. rewrite <- H, Nat.eqb_refl. cbn [negb]. rewrite Hc. eexists. split; [reflexivity|]. unfold logreg_max. split; lra.
Qed.

(** C52: fold labels: one per observation of both samples, the same for both, non-decreasing, each in range and used at most ceil(n/f) times per sample. *)
Theorem C52_labels f n : (1 <= f)%nat ->
  length (groups f n) = (n + n)%nat /\ (forall i, (i < n)%nat -> nth_error (groups f n) i = nth_error (groups f n) (n + i)) /\
  (forall i j a b, (i <= j < n)%nat -> nth_error (groups f n) i = Some a -> nth_error (groups f n) j = Some b -> (a <= b < f)%nat) /\
  (forall j, (f * count_occ Nat.eq_dec (firstn n (groups f n)) j < n + f)%nat).
Proof.
  intros Hf. pose proof (half_len f n Hf) as Hl. pose proof (ceil_div_spec n f Hf) as [Hc1 Hc2]. unfold groups. split; [rewrite app_length, Hl; reflexivity|]. split; [|split].
  - intros i Hi. rewrite nth_error_app1 by lia. rewrite nth_error_app2 by lia. rewrite Hl. f_equal. lia.
  - intros i j a b Hij Ha Hb. rewrite nth_error_app1, half_nth in Ha, Hb by lia. injection Ha as <-. injection Hb as <-. assert (Hc : (ceil_div n f <> 0)%nat) by (intros E; rewrite E in Hc1; lia).
    split; [apply Nat.div_le_mono; lia | apply Nat.div_lt_upper_bound; lia].
  - intros j. assert (Hcount : (count_occ Nat.eq_dec (firstn n (half_groups f n ++ half_groups f n)) j <= ceil_div n f)%nat).
    { rewrite firstn_app, Hl, Nat.sub_diag, firstn_O, app_nil_r, (firstn_all2 (half_groups f n)) by lia. unfold half_groups.
      assert (Hfl : forall m (l : list nat), (count_occ Nat.eq_dec (firstn m l) j <= count_occ Nat.eq_dec l j)%nat). { induction m as [|m IH]; intros [|x l]; cbn [firstn count_occ]; try lia. specialize (IH l). destruct (Nat.eq_dec x j); lia. }
      eapply Nat.le_trans; [apply Hfl|]. generalize (ceil_div n f). intros c. clear.
      assert (Hrep : forall i, count_occ Nat.eq_dec (repeat i c) j = if Nat.eq_dec i j then c else 0%nat). { intros i. induction c as [|c IH]; cbn [repeat count_occ]; [destruct (Nat.eq_dec i j); reflexivity|]. rewrite IH. destruct (Nat.eq_dec i j); lia. }
      assert (G : forall g a, count_occ Nat.eq_dec (flat_map (fun i => repeat i c) (seq a g)) j = if ((a <=? j) && (j <? a + g))%nat%bool then c else 0%nat).
      { induction g as [|g IH]; intros a; cbn [seq flat_map]; [destruct (Nat.leb_spec a j); destruct (Nat.ltb_spec j (a + 0)); cbn [andb count_occ]; lia|]. rewrite count_occ_app, Hrep, IH.
        destruct (Nat.eq_dec a j); destruct (Nat.leb_spec (S a) j); destruct (Nat.ltb_spec j (S a + g)); destruct (Nat.leb_spec a j); destruct (Nat.ltb_spec j (a + S g)); cbn [andb]; lia. }
      rewrite G. destruct (_ && _)%bool; lia. }
    assert (f * count_occ Nat.eq_dec (firstn n (half_groups f n ++ half_groups f n)) j <= f * ceil_div n f)%nat by (apply Nat.mul_le_mono_l; exact Hcount). lia.
Qed.
(** A fold is used exactly when its first position is inside the sample. *)
Theorem C52_used f n j c : (1 <= f)%nat -> (n <= f * c < n + f)%nat -> In j (groups f n) <-> (j * c < n)%nat.
Proof.
  intros Hf Hc. pose proof (ceil_div_spec n f Hf) as [H1 H2]. assert (Ec : c = ceil_div n f) by nia. subst c. assert (G : In j (half_groups f n) <-> (j * ceil_div n f < n)%nat); [|unfold groups; rewrite in_app_iff; tauto]. split.
  - intros Hi. apply In_nth_error in Hi. destruct Hi as (i & Hi). assert (Hlt : (i < n)%nat) by (rewrite <- (half_len f n Hf); apply nth_error_Some; congruence). rewrite half_nth in Hi by assumption. injection Hi as <-.
    assert (Hc0 : (ceil_div n f <> 0)%nat) by (intros E; rewrite E in H1; lia). pose proof (Nat.mul_div_le i (ceil_div n f) Hc0). lia.
  - intros Hj. assert (Hc0 : (ceil_div n f <> 0)%nat) by (intros E; rewrite E in H1; lia). eapply nth_error_In. rewrite (half_nth f n (j * ceil_div n f)%nat Hf Hj). rewrite Nat.div_mul by exact Hc0. reflexivity.
Qed.
(** False: with at least as many observations as folds, every fold is used: 12 observations and 10 folds use 6 folds only. *)
Theorem C52_all_used_refuted : (10 <= 12)%nat /\ ~ In 6%nat (groups 10 12) /\ ~ In 9%nat (groups 10 12) /\ In 5%nat (groups 10 12).
Proof. rewrite !(C52_used 10 12 _ 2) by lia. lia. Qed.

Print Assumptions C39_neighbours.
Print Assumptions C39_refused.
Print Assumptions C39_kl.
Print Assumptions C39_gamma.
Print Assumptions C39_hellinger.
Print Assumptions C39_hellinger_range.
Print Assumptions C39_hellinger_symmetric.
Print Assumptions C39_hellinger_refuted.
Print Assumptions C39_self_refuted.
Print Assumptions C39_logreg.
Print Assumptions C39_penlogreg.
Print Assumptions C52_labels.
Print Assumptions C52_used.
Print Assumptions C52_all_used_refuted.

Example C52_case : groups 3 7 = [0; 0; 0; 1; 1; 1; 2; 0; 0; 0; 1; 1; 1; 2]%nat /\ groups 2 4 = [0; 0; 1; 1; 0; 0; 1; 1]%nat.
Proof. split; reflexivity. Qed.
(** the neighbours used above exist *)
Example C39_case : Neighbours 2 [[0]; [2]] [[0]; [2]] [2; 2] /\ Neighbours 1 [[/2]; [3/2]] [[0]; [2]] [/2; /2] /\ positive [2; 2] /\ positive [/2; /2].
Proof.
  split; [nb|]. split; [nb|]. split; repeat constructor; lra.
Qed.
Example C39_case_logreg : logreg (fun _ _ => [false; true; true]) [[0]; [1]] [[5]] = Ok (1/3).
Proof. cbv -[IZR Rplus Rmult Rminus Ropp Rinv]. f_equal. field. Qed.
