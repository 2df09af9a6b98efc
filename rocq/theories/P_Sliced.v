(** C64: the sliced Wasserstein distance. *)
From Coq Require Import Reals Lia Lra Permutation.
From Verif Require Import M_Base M_Num M_XReal M_MMD M_Stats M_Wass M_Sliced S_Stats S_Distance S_Wass S_Sliced L_PMC L_Stats L_Distance L_PosDef L_MMD L_Joint L_Wass P_Wass.
Open Scope R_scope.

(** Exact solvers exist. *)
Lemma fins_len l : (length (fins l) <= length l)%nat.
Proof. induction l as [|[r| | |] l IH]; cbn; lia. Qed.
Theorem C64_solver_exists : exists emd, Solver1 emd.
Proof.
  exists (fun lx ly la lb => match prob_dec (fins la) with
                             | left HA => match prob_dec (fins lb) with
                                          | left HB => XR (proj1_sig (least_exists (fins la) (fins lb) (fun i j => (nth i (fins lx) 0 - nth j (fins ly) 0) ^ 2) HA HB))
                                          | right _ => XNaN end
                             | right _ => XNaN
                             end).
  intros xs ys a b HA HB _ _. cbv beta. rewrite !fins_map. destruct (prob_dec a) as [HA'|]; [|contradiction]. destruct (prob_dec b) as [HB'|]; [|contradiction].
  destruct (least_exists a b _ HA' HB') as [v Hv]. cbn [proj1_sig]. exists v. split; [reflexivity|exact Hv].
Qed.

(** vectors *)
Definition len2 (v : list R) : R := sqrt (inner v v).
Definition unit (v : list R) : list R := map (fun x => x / len2 v) v.
Lemma inner_cons a b x y : inner (a :: x) (b :: y) = a * b + inner x y.
Proof. reflexivity. Qed.
Lemma inner_scale c : forall x y, inner (map (fun t => c * t) x) y = c * inner x y.
Proof. induction x as [|a x IH]; intros [|b y]; try (cbn; ring). cbn [map]. rewrite !inner_cons, IH. ring. Qed.
Lemma inner_comm : forall x y, inner x y = inner y x.
Proof. induction x as [|a x IH]; intros [|b y]; try (cbn; ring). rewrite !inner_cons, IH. ring. Qed.
Lemma inner_pos v : (exists x, In x v /\ x <> 0) -> 0 < inner v v.
Proof.
  intros (x & HI & HN). revert HI. induction v as [|a v IH]; [intros []|]. intros [-> | HI]; rewrite inner_cons.
  - pose proof (dotl_self v) as D. change (dotl v v) with (inner v v) in D. assert (0 < x * x) by nra. lra.
  - specialize (IH HI). nra.
Qed.
Lemma unit_scale v : 0 < inner v v -> unit v = map (fun t => / len2 v * t) v.
Proof. intros H. unfold unit. apply map_ext. intros x. unfold Rdiv. ring. Qed.
Lemma unit_of v : 0 < inner v v -> UnitOf v (unit v).
Proof.
  intros H. assert (HL : 0 < len2 v) by (apply sqrt_lt_R0; assumption). split; [apply map_length|]. split.
  - rewrite unit_scale, inner_scale, inner_comm, inner_scale by assumption.
    assert (E : len2 v * len2 v = inner v v) by (apply sqrt_sqrt; lra). rewrite <- E. field. lra.
  - exists (len2 v). split; [assumption|]. unfold unit. rewrite map_map. rewrite <- (map_id v) at 1. apply map_ext. intros x. field. lra.
Qed.
Lemma norm2_fin v : norm2 v = XR (len2 v).
Proof.
  unfold norm2. cbn [xmul]. rewrite <- (map_map (fun x => x * x) XR), xsum_fin, xsqrt_fin.
  - f_equal. unfold len2. f_equal. rewrite total_rsum. unfold inner. f_equal. induction v as [|a v IH]; [reflexivity|]. cbn [map combine fst snd]. rewrite IH. reflexivity.
  - rewrite total_rsum. apply total_nonneg. apply Forall_map, Forall_forall. intros x _. nra.
Qed.
Lemma unit_row_fin v : 0 < inner v v -> unit_row v = map XR (unit v).
Proof.
  intros H. unfold unit_row, unit. rewrite norm2_fin, map_map. apply map_ext. intros x. apply xdiv_fin.
  assert (HL : 0 < len2 v) by (apply sqrt_lt_R0; assumption). lra.
Qed.
Lemma project_fin t s : project (map XR t) s = map XR (map (inner t) s).
Proof.
  unfold project. rewrite map_map. apply map_ext. intros x. unfold inner. rewrite <- total_rsum, <- xsum_fin. f_equal. rewrite !map_map.
  revert x. induction t as [|a t IH]; intros [|b x]; try reflexivity. cbn [map combine fst snd xmul]. rewrite IH. reflexivity.
Qed.
Lemma inner_sub t : forall x y, length x = length y -> inner t x - inner t y = inner t (vsub x y).
Proof.
  induction t as [|a t IH]; intros [|b x] [|c y] H; try discriminate; try (cbn; ring). injection H as H. change (vsub (b :: x) (c :: y)) with ((b - c) :: vsub x y).
  rewrite !inner_cons, <- IH by assumption. ring.
Qed.
Lemma equal_prob n : (0 < n)%nat -> Prob (equal n).
Proof. intros H. exact (proj1 (proj2 (normed_good n None (conj H I)))). Qed.
Lemma equal_len n : length (equal n) = n.
Proof. apply repeat_length. Qed.
Lemma equal_fin n : (0 < n)%nat -> repeat (xdiv (XR 1) (XR (INR n))) n = map XR (equal n).
Proof.
  intros H. assert (0 < INR n) by (apply lt_0_INR; assumption). unfold equal. rewrite repeat_map, xdiv_fin by lra. f_equal. f_equal. unfold Rdiv. ring.
Qed.
Lemma nth_onto t s i : (i < length s)%nat -> nth i (onto t s) [] = [inner t (nth i s [])].
Proof. intros H. unfold onto. rewrite nth_indep with (d' := (fun x => [inner t x]) []) by (rewrite map_length; assumption). exact (map_nth (fun x => [inner t x]) s [] i). Qed.
Lemma vdist_one x y : vdist [x] [y] ^ 2 = (x - y) ^ 2.
Proof. rewrite vdist_sq. rewrite <- Rsqr_pow2, Rsqr_sqrt by apply sq_nn. unfold sq. cbn. ring. Qed.

Section C64.
Variable G : Type.
Variable normals : G -> nat -> nat -> G * list (list R).
Variable emd : list xr -> list xr -> list xr -> list xr -> xr.
Notation dist := (sliced_distance G normals emd).

(** Data sets with different numbers of columns are refused, so are empty ones and zero projections. *)
Theorem C64_refused : forall g d1 s1 d2 s2 k,
  (d1 <> d2 -> dist g d1 s1 d2 s2 k = (g, Err ValueError)) /\
  (s1 = [] \/ s2 = [] -> d1 = d2 -> dist g d1 s1 d2 s2 k = (g, Err ZeroDivisionError)) /\
  (s1 <> [] -> s2 <> [] -> d1 = d2 -> k = 0%nat -> snd (dist g d1 s1 d2 s2 k) = Err ZeroDivisionError).
Proof.
  intros g d1 s1 d2 s2 k. unfold sliced_distance, sliced_wasserstein_distance. split; [|split].
  - intros H. apply Nat.eqb_neq in H. rewrite H. reflexivity.
  - intros [-> | ->] ->; rewrite Nat.eqb_refl; cbn [negb length Nat.eqb orb]; [reflexivity|]. rewrite Bool.orb_true_r. reflexivity.
  - intros H1 H2 -> ->. rewrite Nat.eqb_refl. cbn [negb]. destruct s1; [congruence|]. destruct s2; [congruence|]. cbn [length Nat.eqb orb].
    destruct (get_random_projections G normals g 0 d2). reflexivity.
Qed.

Hypothesis HG : Generator normals.
Hypothesis HS : Solver1 emd.

(** the distance of two projected samples *)
Lemma one_direction t s1 s2 : s1 <> [] -> s2 <> [] ->
  exists w, W2dist (onto t s1) (onto t s2) (equal (length s1)) (equal (length s2)) w /\
    emd (project (map XR t) s1) (project (map XR t) s2) (map XR (equal (length s1))) (map XR (equal (length s2))) = XR (w ^ 2).
Proof.
  intros H1 H2. assert (L1 : (0 < length s1)%nat) by (destruct s1; [congruence|cbn; lia]). assert (L2 : (0 < length s2)%nat) by (destruct s2; [congruence|cbn; lia]).
  rewrite !project_fin.
  destruct (HS (map (inner t) s1) (map (inner t) s2) (equal (length s1)) (equal (length s2))) as (v & E & L); try (apply equal_prob; assumption); try (rewrite map_length, equal_len; reflexivity).
  assert (V : 0 <= v).
  { apply (least_nonneg (equal (length s1)) (equal (length s2)) (fun i j => (nth i (map (inner t) s1) 0 - nth j (map (inner t) s2) 0) ^ 2) v); [apply equal_prob; assumption|apply equal_prob; assumption|intros; apply pow2_ge_0|exact L]. }
  exists (sqrt v). assert (SV : sqrt v ^ 2 = v) by (rewrite <- Rsqr_pow2; apply Rsqr_sqrt; assumption).
  split; [|rewrite SV; exact E]. split; [apply sqrt_pos|]. rewrite SV. eapply least_ext; [|exact L].
  intros i j Hi Hj. rewrite equal_len in Hi, Hj. cbn beta. rewrite !nth_onto by assumption. rewrite vdist_one.
  rewrite nth_indep with (d' := inner t []) by (rewrite map_length; assumption). rewrite (map_nth (inner t)).
  rewrite (nth_indep (map (inner t) s2) 0 (inner t [])) by (rewrite map_length; assumption). rewrite (map_nth (inner t)). reflexivity.
Qed.
Lemma all_directions s1 s2 : s1 <> [] -> s2 <> [] -> forall rows, NonZero rows ->
  exists ws, Forall2 (fun v w => W2dist (onto (unit v) s1) (onto (unit v) s2) (equal (length s1)) (equal (length s2)) w) rows ws /\
    forall acc, fold_left (fun acc p => xadd acc (emd (project p s1) (project p s2) (map XR (equal (length s1))) (map XR (equal (length s2))))) (map unit_row rows) (XR acc)
      = XR (acc + total (map (fun w => w ^ 2) ws)).
Proof.
  intros H1 H2. induction rows as [|v rows IH]; intros HN.
  - exists []. split; [constructor|]. intros acc. cbn. f_equal. lra.
  - inversion HN as [|? ? Hv HN']; subst. destruct (IH HN') as (ws & F & E). destruct (one_direction (unit v) s1 s2 H1 H2) as (w & HW & EW).
    exists (w :: ws). split; [constructor; assumption|]. intros acc. cbn [map fold_left]. rewrite unit_row_fin by (apply inner_pos; assumption). rewrite EW. cbn [xadd]. rewrite E. f_equal. rewrite total_cons. ring.
Qed.
Lemma value_at g d s1 s2 k : s1 <> [] -> s2 <> [] -> (0 < k)%nat -> NonZero (snd (normals g k d)) ->
  exists ws, Forall2 (fun v w => W2dist (onto (unit v) s1) (onto (unit v) s2) (equal (length s1)) (equal (length s2)) w) (snd (normals g k d)) ws /\ length ws = k /\
    dist g d s1 d s2 k = (fst (normals g k d), Ok (XR (sqrt (average (map (fun w => w ^ 2) ws))))).
Proof.
  intros H1 H2 Hk HN. assert (L1 : (0 < length s1)%nat) by (destruct s1; [congruence|cbn; lia]). assert (L2 : (0 < length s2)%nat) by (destruct s2; [congruence|cbn; lia]).
  destruct (all_directions s1 s2 H1 H2 _ HN) as (ws & F & E). exists ws. split; [exact F|].
  assert (LW : length ws = k). { rewrite <- (proj1 (HG g k d)). symmetry. clear -F. induction F; cbn; congruence. } split; [exact LW|].
  unfold sliced_distance, sliced_wasserstein_distance, get_random_projections. rewrite Nat.eqb_refl. cbn [negb].
  replace (length s1 =? 0)%nat with false by (symmetry; apply Nat.eqb_neq; lia). replace (length s2 =? 0)%nat with false by (symmetry; apply Nat.eqb_neq; lia). cbn [orb].
  rewrite !equal_fin by assumption. destruct (normals g k d) as [g' rows]. cbn [fst snd] in *. rewrite E.
  replace (k =? 0)%nat with false by (symmetry; apply Nat.eqb_neq; lia).
  assert (0 < INR k) by (apply lt_0_INR; assumption). rewrite xdiv_fin by lra. rewrite xsqrt_fin.
  - do 4 f_equal. unfold average. rewrite map_length, LW, Rplus_0_l. reflexivity.
  - rewrite Rplus_0_l. apply Rmult_le_pos; [|left; apply Rinv_0_lt_compat; assumption]. apply total_nonneg. apply Forall_map, Forall_forall. intros w _. apply pow2_ge_0.
Qed.

(** The value is the square root of the mean, over the drawn directions, of the squared 2-Wasserstein distances of the
    projected data sets; the directions are the drawn rows scaled to length one. The generator moves on. *)
Theorem C64_value : forall g d s1 s2 k, s1 <> [] -> s2 <> [] -> (0 < k)%nat -> NonZero (snd (normals g k d)) ->
  exists ts ws, Forall2 UnitOf (snd (normals g k d)) ts /\
    Forall2 (fun t w => W2dist (onto t s1) (onto t s2) (equal (length s1)) (equal (length s2)) w) ts ws /\ length ws = k /\
    dist g d s1 d s2 k = (fst (normals g k d), Ok (XR (sqrt (average (map (fun w => w ^ 2) ws))))).
Proof.
  intros g d s1 s2 k H1 H2 Hk HN. destruct (value_at g d s1 s2 k H1 H2 Hk HN) as (ws & F & L & E). exists (map unit (snd (normals g k d))), ws. split; [|split; [|split; assumption]].
  - clear -HN. induction HN as [|v rows Hv HN IH]; cbn; constructor; [apply unit_of, inner_pos; assumption|assumption].
  - clear -F. induction F; cbn; constructor; assumption.
Qed.
(** It is never negative, and zero for a data set against itself. *)
Theorem C64_nonneg : forall g d s1 s2 k, s1 <> [] -> s2 <> [] -> (0 < k)%nat -> NonZero (snd (normals g k d)) ->
  exists v, snd (dist g d s1 d s2 k) = Ok (XR v) /\ 0 <= v.
Proof. intros g d s1 s2 k H1 H2 Hk HN. destruct (value_at g d s1 s2 k H1 H2 Hk HN) as (ws & F & L & E). rewrite E. eexists. split; [reflexivity|apply sqrt_pos]. Qed.
Lemma average_zero ws : Forall (fun w => w = 0) ws -> sqrt (average (map (fun w => w ^ 2) ws)) = 0.
Proof.
  intros H. assert (E : total (map (fun w => w ^ 2) ws) = 0). { induction H as [|w ws -> H IH]; [reflexivity|]. cbn [map]. rewrite total_cons, IH. ring. }
  unfold average. rewrite E. unfold Rdiv. rewrite Rmult_0_l. apply sqrt_0.
Qed.
Lemma zero_if g d s1 s2 k : s1 <> [] -> s2 <> [] -> (0 < k)%nat -> NonZero (snd (normals g k d)) ->
  (forall v, In v (snd (normals g k d)) -> W2dist (onto (unit v) s1) (onto (unit v) s2) (equal (length s1)) (equal (length s2)) 0) -> snd (dist g d s1 d s2 k) = Ok (XR 0).
Proof.
  intros H1 H2 Hk HN HZ. destruct (value_at g d s1 s2 k H1 H2 Hk HN) as (ws & F & L & E). rewrite E. cbn [snd]. do 2 f_equal. apply average_zero.
  clear -F HZ. induction F as [|v w rows ws HW F IH]; constructor.
  - eapply W2_unique; [exact HW|]. apply HZ. left. reflexivity.
  - apply IH. intros u Hu. apply HZ. right. assumption.
Qed.
Theorem C64_self : forall g d s k, s <> [] -> (0 < k)%nat -> NonZero (snd (normals g k d)) -> snd (dist g d s d s k) = Ok (XR 0).
Proof.
  intros g d s k H Hk HN. apply zero_if; try assumption. intros v _. apply W2_self. apply equal_prob. destruct s; [congruence|cbn; lia].
Qed.
(** With the same state of the generator (the same directions) it is symmetric, ... *)
Theorem C64_symmetric : forall g d s1 s2 k, s1 <> [] -> s2 <> [] -> (0 < k)%nat -> NonZero (snd (normals g k d)) ->
  dist g d s1 d s2 k = dist g d s2 d s1 k.
Proof.
  intros g d s1 s2 k H1 H2 Hk HN. destruct (value_at g d s1 s2 k H1 H2 Hk HN) as (ws & F & L & E). destruct (value_at g d s2 s1 k H2 H1 Hk HN) as (ws' & F' & L' & E').
  rewrite E, E'. assert (K : ws = ws'); [|rewrite K; reflexivity]. clear -F F'. revert ws' F'. induction F as [|v w rows ws HW F IH]; intros ws' F'; inversion F'; subst; [reflexivity|]. f_equal; [|apply IH; assumption].
  eapply W2_unique; [exact HW|]. apply W2_sym. assumption.
Qed.
(** ... satisfies the triangle inequality, ... *)
Theorem C64_triangle : forall g d s1 s2 s3 k v12 v23 v13, s1 <> [] -> s2 <> [] -> s3 <> [] -> (0 < k)%nat -> NonZero (snd (normals g k d)) ->
  snd (dist g d s1 d s2 k) = Ok (XR v12) -> snd (dist g d s2 d s3 k) = Ok (XR v23) -> snd (dist g d s1 d s3 k) = Ok (XR v13) -> v13 <= v12 + v23.
Proof.
  intros g d s1 s2 s3 k v12 v23 v13 H1 H2 H3 Hk HN E12 E23 E13.
  destruct (value_at g d s1 s2 k H1 H2 Hk HN) as (w12 & F12 & L12 & D12). destruct (value_at g d s2 s3 k H2 H3 Hk HN) as (w23 & F23 & L23 & D23). destruct (value_at g d s1 s3 k H1 H3 Hk HN) as (w13 & F13 & L13 & D13).
  rewrite D12 in E12. rewrite D23 in E23. rewrite D13 in E13. cbn [snd] in *.
  assert (V12 : v12 = sqrt (average (map (fun w => w ^ 2) w12))) by congruence. assert (V23 : v23 = sqrt (average (map (fun w => w ^ 2) w23))) by congruence. assert (V13 : v13 = sqrt (average (map (fun w => w ^ 2) w13))) by congruence.
  subst v12 v23 v13. clear E12 E23 E13 D12 D23 D13.
  assert (HK : 0 < / INR k) by (apply Rinv_0_lt_compat, lt_0_INR; assumption).
  assert (AV : forall ws, length ws = k -> average (map (fun w => w ^ 2) ws) = total (map (fun w => / INR k * w ^ 2) ws)).
  { intros ws L. unfold average. rewrite map_length, L, total_scale. unfold Rdiv. ring. }
  rewrite !AV by assumption. clear AV L12 L23 L13 HN.
  assert (C : forall (f : R * R -> R), True) by (intros; exact I). clear C.
  set (c := combine w12 w23).
  assert (LL : length w12 = length w23). { transitivity (length (snd (normals g k d))); [symmetry|]; [clear -F12; induction F12; cbn; congruence|clear -F23; induction F23; cbn; congruence]. }
  assert (M12 : map (fun w => / INR k * w ^ 2) w12 = map (fun p => / INR k * fst p ^ 2) c).
  { unfold c. clear -LL. revert w23 LL. induction w12 as [|x w IH]; intros [|y w'] LL; try discriminate; [reflexivity|]. cbn [combine map fst]. f_equal. apply IH. cbn in LL. lia. }
  assert (M23 : map (fun w => / INR k * w ^ 2) w23 = map (fun p => / INR k * snd p ^ 2) c).
  { unfold c. clear -LL. revert w23 LL. induction w12 as [|x w IH]; intros [|y w'] LL; try discriminate; [reflexivity|]. cbn [combine map snd]. f_equal. apply IH. cbn in LL. lia. }
  rewrite M12, M23. eapply Rle_trans; [|apply (minkowski c (fun _ => / INR k) fst snd); intros; lra].
  apply sqrt_le_1_alt. unfold c. clear M12 M23 LL c.
  assert (HDIM : forall t s, Forall (fun x => length x = 1%nat) (onto t s)) by (intros t s; apply Forall_map, Forall_forall; intros; reflexivity).
  assert (HLEN : forall t s, length (onto t s) = length (equal (length s))) by (intros t s; unfold onto; rewrite map_length, equal_len; reflexivity).
  revert w23 w13 F23 F13. induction F12 as [|v x rows w12 HX F12 IH]; intros w23 w13 F23 F13; inversion F23 as [|? y ? w23' HY F23']; subst; inversion F13 as [|? z ? w13' HZ F13']; subst; [apply Rle_refl|].
  cbn [combine map fst snd]. rewrite !total_cons. specialize (IH _ _ F23' F13').
  pose proof (W2_triangle 1 _ _ _ _ _ _ _ _ _ (HLEN _ _) (HLEN _ _) (HLEN _ _) (HDIM _ _) (HDIM _ _) (HDIM _ _) HX HY HZ) as T.
  assert (0 <= z) by apply HZ. assert (z ^ 2 <= (x + y) ^ 2) by (apply pow_incr; lra). pose proof (Rmult_le_compat_l (/ INR k) _ _ (Rlt_le _ _ HK) H0). lra.
Qed.
(** ... and is at most the 2-Wasserstein distance. *)
Theorem C64_below : forall g d s1 s2 k v w, Data d s1 -> Data d s2 -> (0 < k)%nat -> NonZero (snd (normals g k d)) ->
  snd (dist g d s1 d s2 k) = Ok (XR v) -> W2dist s1 s2 (equal (length s1)) (equal (length s2)) w -> v <= w.
Proof.
  intros g d s1 s2 k v w [H1 D1] [H2 D2] Hk HN E [W0 [_ WA]].
  destruct (value_at g d s1 s2 k H1 H2 Hk HN) as (ws & F & L & E'). rewrite E' in E. cbn [snd] in E. assert (EV : v = sqrt (average (map (fun w => w ^ 2) ws))) by congruence. subst v. clear E E'.
  assert (B : Forall (fun x => x ^ 2 <= w ^ 2) ws).
  { pose proof (proj2 (HG g k d)) as HD. clear L. revert HN HD. induction F as [|u x rows ws HX F IH]; intros HN HD; constructor.
    - inversion HN as [|? ? Hu _]; subst. inversion HD as [|? ? Du _]; subst.
      destruct (unit_of u (inner_pos u Hu)) as (LU & U1 & _). destruct HX as [_ [LB _]].
      destruct (Rle_dec (x ^ 2) (w ^ 2)) as [|N]; [assumption|]. exfalso. destruct (WA (x ^ 2 - w ^ 2)) as (p & HP & HC); [lra|]. specialize (LB p HP).
      enough (cost (length (equal (length s1))) (length (equal (length s2))) (fun i j => vdist (nth i (onto (unit u) s1) []) (nth j (onto (unit u) s2) []) ^ 2) p
              <= cost (length (equal (length s1))) (length (equal (length s2))) (fun i j => vdist (nth i s1 []) (nth j s2 []) ^ 2) p) by lra.
      unfold cost. apply sumn_le. intros i Hi. apply sumn_le. intros j Hj. destruct HP as (P0 & _). specialize (P0 i j Hi Hj). apply Rmult_le_compat_l; [assumption|].
      rewrite equal_len in Hi, Hj. rewrite !nth_onto by assumption. rewrite vdist_one.
      rewrite Forall_forall in D1, D2. pose proof (D1 _ (nth_In _ [] Hi)) as L1. pose proof (D2 _ (nth_In _ [] Hj)) as L2.
      rewrite inner_sub by congruence. rewrite vdist_sq. rewrite <- (Rsqr_pow2 (sqrt _)), Rsqr_sqrt by apply sq_nn. rewrite sq_dot.
      assert (LV : length (vsub (nth i s1 []) (nth j s2 [])) = length u) by (unfold vsub; rewrite map_length, combine_length; cbv beta in *; change vec with (list R) in *; rewrite L1, L2; lia).
      pose proof (cauchy (unit u) (vsub (nth i s1 []) (nth j s2 [])) ltac:(congruence)) as C. change (dotl (unit u) (unit u)) with (inner (unit u) (unit u)) in C. rewrite U1 in C.
      change (dotl (unit u) (vsub (nth i s1 []) (nth j s2 []))) with (inner (unit u) (vsub (nth i s1 []) (nth j s2 []))) in C. lra.
    - apply IH; [inversion HN; assumption|inversion HD; assumption]. }
  rewrite <- (sqrt_pow2 w) by assumption. apply sqrt_le_1_alt. unfold average. rewrite map_length, L.
  assert (HK : 0 < INR k) by (apply lt_0_INR; assumption). apply (Rmult_le_reg_r (INR k)); [assumption|]. unfold Rdiv. rewrite Rmult_assoc, Rinv_l, Rmult_1_r by lra.
  rewrite Rmult_comm, <- L, <- (total_const (w ^ 2) ws). apply total_le. rewrite Forall_forall in B. exact B.
Qed.

(** Distance zero does not mean that the two data sets have the same distribution: whatever the drawn directions of the
    plane, some pair of different data sets has the distance zero. *)
Definition add (u x : list R) : list R := [nth 0 u 0 + nth 0 x 0; nth 1 u 0 + nth 1 x 0].
Definition lexpos (x : list R) : Prop := 0 < nth 0 x 0 \/ (nth 0 x 0 = 0 /\ 0 < nth 1 x 0).
Definition across (v : list R) : list R :=
  let p := nth 0 v 0 in let q := nth 1 v 0 in
  if Rlt_dec 0 q then [q; - p] else if Rlt_dec q 0 then [- q; p] else [0; Rabs p].
Fixpoint parity (rows : list (list R)) : list (list R) * list (list R) :=
  match rows with
  | [] => ([[0; 0]], [])
  | v :: rows' => let '(E, Od) := parity rows' in (E ++ map (add (across v)) Od, Od ++ map (add (across v)) E)
  end.
Lemma across_lex v : length v = 2%nat -> (exists x, In x v /\ x <> 0) -> lexpos (across v).
Proof.
  intros L (x & HI & HN). destruct v as [|p [|q [|? ?]]]; try discriminate. unfold across, lexpos. cbn [nth].
  destruct (Rlt_dec 0 q) as [?|N1]; [cbn [nth]; lra|]. destruct (Rlt_dec q 0) as [?|N2]; [cbn [nth]; lra|]. cbn [nth]. right. split; [reflexivity|]. apply Rabs_pos_lt.
  destruct HI as [<-|[<-|[]]]; [assumption|lra].
Qed.
Lemma across_orth v : length v = 2%nat -> inner v (across v) = 0.
Proof.
  intros L. destruct v as [|p [|q [|? ?]]]; try discriminate. unfold across. cbn [nth]. destruct (Rlt_dec 0 q) as [?|N1]; [cbn; ring|]. destruct (Rlt_dec q 0) as [?|N2]; [cbn; ring|].
  assert (q = 0) by lra. subst. cbn. ring.
Qed.
Lemma inner_add t u x : length t = 2%nat -> length u = 2%nat -> length x = 2%nat -> inner t (add u x) = inner t u + inner t x.
Proof.
  intros Lt Lu Lx. destruct t as [|a [|b [|? ?]]]; try discriminate. destruct u as [|p [|q [|? ?]]]; try discriminate. destruct x as [|y [|z [|? ?]]]; try discriminate. cbn. ring.
Qed.
Lemma across_len v : length (across v) = 2%nat.
Proof. unfold across. destruct (Rlt_dec _ _); [reflexivity|]. destruct (Rlt_dec _ _); reflexivity. Qed.
Lemma parity_len rows : Forall (fun x => length x = 2%nat) (fst (parity rows)) /\ Forall (fun x => length x = 2%nat) (snd (parity rows)).
Proof.
  induction rows as [|v rows [IE IO]]; [split; repeat constructor|]. cbn [parity]. destruct (parity rows) as [E Od]. cbn [fst snd] in *.
  split; apply Forall_app; split; try assumption; apply Forall_map, Forall_forall; intros; reflexivity.
Qed.
Lemma parity_lex rows : Forall (fun v => length v = 2%nat) rows -> NonZero rows ->
  Forall (fun x => x = [0; 0] \/ lexpos x) (fst (parity rows)) /\ Forall lexpos (snd (parity rows)) /\ In [0; 0] (fst (parity rows)).
Proof.
  intros HL HN. induction rows as [|v rows IH].
  - cbn. split; [repeat constructor; left; reflexivity|]. split; [constructor|]. left. reflexivity.
  - inversion HL as [|? ? Lv HL']; subst. inversion HN as [|? ? Nv HN']; subst. destruct (IH HL' HN') as (IE & IO & IZ). pose proof (across_lex v Lv Nv) as LX.
    cbn [parity]. destruct (parity rows) as [E Od]. cbn [fst snd] in *.
    assert (A : forall x, x = [0; 0] \/ lexpos x -> lexpos (add (across v) x)). { intros x [-> | Hx]; unfold lexpos, add in *; cbn [nth] in *; lra. }
    split; [|split].
    + apply Forall_app. split; [assumption|]. apply Forall_map. eapply Forall_impl; [|exact IO]. intros x Hx. right. apply A. right. assumption.
    + apply Forall_app. split; [assumption|]. apply Forall_map. eapply Forall_impl; [|exact IE]. exact A.
    + apply in_or_app. left. assumption.
Qed.
Lemma parity_proj rows : Forall (fun v => length v = 2%nat) rows -> forall t, In t rows -> Permutation (map (inner t) (fst (parity rows))) (map (inner t) (snd (parity rows))).
Proof.
  induction rows as [|v rows IH]; intros HL t HT; [destruct HT|]. inversion HL as [|? ? Lv HL']; subst. specialize (IH HL').
  pose proof (parity_len rows) as [PE PO]. cbn [parity]. destruct (parity rows) as [E Od]. cbn [fst snd] in *. rewrite !map_app, !map_map.
  assert (LT : length t = 2%nat) by (rewrite Forall_forall in HL; apply HL; assumption).
  assert (S : forall l, Forall (fun x => length x = 2%nat) l -> map (fun x => inner t (add (across v) x)) l = map (fun c => inner t (across v) + c) (map (inner t) l)).
  { intros l Hl. rewrite map_map. apply map_ext_in. intros x Hx. rewrite Forall_forall in Hl. apply inner_add; [assumption|apply across_len|apply Hl; assumption]. }
  rewrite !S by assumption. destruct HT as [-> | HT].
  - rewrite across_orth by assumption.
    assert (Z : forall l, map (fun c => 0 + c) l = l) by (intros l; rewrite <- (map_id l) at 2; apply map_ext; intros; ring). rewrite !Z. apply Permutation_app_comm.
  - specialize (IH t HT). apply Permutation_app; [assumption|]. apply Permutation_map. apply Permutation_sym. assumption.
Qed.
Lemma total_perm l l' : Permutation l l' -> total l = total l'.
Proof. induction 1; rewrite ?total_cons; lra. Qed.
Lemma mean_equal s f : mean_of s (equal (length s)) f = average (map f s).
Proof.
  unfold mean_of. rewrite equal_len. unfold average. rewrite map_length. unfold sumn.
  rewrite (total_ext _ (fun i => / INR (length s) * f (nth i s []))).
  - rewrite total_scale. unfold Rdiv. rewrite Rmult_comm. f_equal. f_equal.
    rewrite <- (map_map (fun i => nth i s []) f). f_equal. clear. apply nth_ext with (d := []) (d' := []); [rewrite map_length, seq_length; reflexivity|].
    intros n Hn. rewrite map_length, seq_length in Hn. rewrite (nth_indep _ [] (nth 0 s [])) by (rewrite map_length, seq_length; assumption). rewrite (map_nth (fun i => nth i s [])), seq_nth by assumption. reflexivity.
  - intros i Hi. apply in_seq in Hi. f_equal. unfold equal. assert (NR : forall (c : R) n m, (m < n)%nat -> nth m (repeat c n) 0 = c) by (intros c n; induction n; intros [|m'] H; cbn; try lia; [reflexivity|apply IHn; lia]). apply NR. lia.
Qed.
Lemma same_equal s1 s2 : Permutation s1 s2 -> SameDistribution s1 s2 (equal (length s1)) (equal (length s2)).
Proof.
  intros P f. rewrite !mean_equal. unfold average. rewrite !map_length, (Permutation_length P). f_equal. apply total_perm. apply Permutation_map. assumption.
Qed.
Lemma onto_unit_perm v s1 s2 : 0 < inner v v -> Permutation (map (inner v) s1) (map (inner v) s2) -> Permutation (onto (unit v) s1) (onto (unit v) s2).
Proof.
  intros H P. unfold onto.
  assert (E : forall s, map (fun x => [inner (unit v) x]) s = map (fun c => [/ len2 v * c]) (map (inner v) s)).
  { intros s. rewrite map_map. apply map_ext. intros x. rewrite unit_scale, inner_scale by assumption. reflexivity. }
  rewrite !E. apply Permutation_map. assumption.
Qed.
Theorem C64_zero_refuted : forall g k, (0 < k)%nat -> NonZero (snd (normals g k 2)) ->
  exists s1 s2, Data 2 s1 /\ Data 2 s2 /\ ~ SameDistribution s1 s2 (equal (length s1)) (equal (length s2)) /\ snd (dist g 2 s1 2 s2 k) = Ok (XR 0).
Proof.
  intros g k Hk HN. destruct (HG g k 2%nat) as [LR DR]. set (rows := snd (normals g k 2%nat)) in *.
  destruct (parity_lex rows DR HN) as (IE & IO & IZ). destruct (parity_len rows) as [PE PO]. pose proof (parity_proj rows DR) as PP.
  exists (fst (parity rows)), (snd (parity rows)). set (E := fst (parity rows)) in *. set (Od := snd (parity rows)) in *.
  assert (NE : E <> []) by (intros Z; rewrite Z in IZ; destruct IZ).
  assert (NO : Od <> []).
  { destruct rows as [|v rs] eqn:ER; [cbn in LR; lia|]. specialize (PP v (or_introl eq_refl)). intros Z. rewrite Z in PP. cbn in PP. apply Permutation_sym, Permutation_nil in PP. apply map_eq_nil in PP. contradiction. }
  split; [split; assumption|]. split; [split; assumption|]. split.
  - intros S. specialize (S (fun x => if list_eq_dec Req_EM_T x [0; 0] then 1 else 0)). rewrite !mean_equal in S.
    assert (Z : total (map (fun x => if list_eq_dec Req_EM_T x [0; 0] then 1 else 0) Od) = 0).
    { clear -IO. induction IO as [|x l Hx IO IH]; [reflexivity|]. cbn [map]. rewrite total_cons, IH. destruct (list_eq_dec Req_EM_T x [0; 0]) as [-> |]; [unfold lexpos in Hx; cbn [nth] in Hx; lra|lra]. }
    unfold average in S. rewrite Z in S.
    assert (P : 1 <= total (map (fun x => if list_eq_dec Req_EM_T x [0; 0] then 1 else 0) E)).
    { clear -IZ. induction E as [|x l IH]; [destruct IZ|]. cbn [map]. rewrite total_cons.
      assert (N : 0 <= total (map (fun x => if list_eq_dec Req_EM_T x [0; 0] then 1 else 0) l)). { apply total_nonneg. apply Forall_map, Forall_forall. intros y _. destruct (list_eq_dec _ _ _); lra. }
      destruct IZ as [-> | IZ]; [destruct (list_eq_dec _ _ _); [lra|congruence]|]. specialize (IH IZ). destruct (list_eq_dec Req_EM_T x [0; 0]); lra. }
    rewrite map_length in S. assert (0 < INR (length E)) by (apply lt_0_INR; destruct E; [congruence|cbn; lia]).
    unfold Rdiv in S. rewrite Rmult_0_l in S. apply Rmult_integral in S. destruct S as [S|S]; [lra|]. apply Rinv_neq_0_compat in S; [assumption|lra].
  - apply zero_if; try assumption. intros v Hv. apply W2_same.
    + apply equal_prob. destruct E; [congruence|cbn; lia].
    + apply equal_prob. destruct Od; [congruence|cbn; lia].
    + unfold onto. rewrite map_length, equal_len. reflexivity.
    + unfold onto. rewrite map_length, equal_len. reflexivity.
    + assert (Nv : 0 < inner v v). { unfold NonZero in HN. rewrite Forall_forall in HN. apply inner_pos, HN. assumption. }
      pose proof (onto_unit_perm v E Od Nv (PP v Hv)) as P. apply same_equal in P. unfold onto in P at 3 4. rewrite !map_length in P. exact P.
Qed.
End C64.
Print Assumptions C64_solver_exists.
Print Assumptions C64_refused.
Print Assumptions C64_value.
Print Assumptions C64_nonneg.
Print Assumptions C64_self.
Print Assumptions C64_symmetric.
Print Assumptions C64_triangle.
Print Assumptions C64_below.
Print Assumptions C64_zero_refuted.

(** A generator whose directions alternate between the two axes (in two columns). *)
Module Toy.
Definition normals (g k d : nat) : nat * list (list R) := (S g, repeat (map (fun i => if (i =? g mod 2)%nat then 3 else 0) (seq 0 d)) k).
Lemma generator : Generator normals.
Proof. intros g k d. cbn [normals snd]. split; [apply repeat_length|]. apply Forall_forall. intros v Hv. apply repeat_spec in Hv. subst. rewrite map_length, seq_length. reflexivity. Qed.
Lemma nonzero g k : NonZero (snd (normals g k 2%nat)).
Proof.
  apply Forall_forall. intros v Hv. apply repeat_spec in Hv. subst. exists 3. split; [|lra]. cbn [seq map].
  pose proof (Nat.mod_upper_bound g 2 ltac:(lia)) as B. destruct (g mod 2)%nat as [|[|?]]; [left; reflexivity|right; left; reflexivity|lia].
Qed.
End Toy.
Lemma W2_single x y : W2dist [x] [y] (equal 1) (equal 1) (vdist x y).
Proof.
  destruct C53_solver_exists as (e2 & H2). destruct (C53_value e2 H2 [x] [y] None None) as (v & E & W & _); [split; [cbn; lia|exact I]..|].
  rewrite (C53_single e2 H2) in E. assert (EV : v = vdist x y) by congruence. subst v. exact W.
Qed.
Lemma single_value emd g x y : Solver1 emd -> snd (sliced_distance nat Toy.normals emd g 2 [x] 2 [y] 1) = Ok (XR (sqrt (vdist [inner (unit (map (fun i => if (i =? g mod 2)%nat then 3 else 0) (seq 0 2))) x] [inner (unit (map (fun i => if (i =? g mod 2)%nat then 3 else 0) (seq 0 2))) y] ^ 2))).
Proof.
  intros HS. destruct (value_at nat Toy.normals emd Toy.generator HS g 2 [x] [y] 1) as (ws & F & L & E); try congruence; [lia|apply Toy.nonzero|].
  rewrite E. cbn [snd]. cbn [Toy.normals snd repeat] in F. inversion F as [|? w ? ws' HW F']; subst. inversion F'; subst. cbn [length] in HW.
  pose proof (W2_unique _ _ _ _ _ _ HW (W2_single _ _)) as EW. rewrite EW. do 3 f_equal. unfold average. cbn [map total fold_right length INR]. rewrite Rplus_0_r. unfold Rdiv. rewrite Rinv_1, Rmult_1_r. reflexivity.
Qed.
Lemma unit_axis : unit [3; 0] = [1; 0] /\ unit [0; 3] = [0; 1].
Proof.
  assert (E1 : len2 [3; 0] = 3). { unfold len2. replace (inner [3; 0] [3; 0]) with (3 * 3) by (cbn; ring). apply sqrt_square. lra. }
  assert (E2 : len2 [0; 3] = 3). { unfold len2. replace (inner [0; 3] [0; 3]) with (3 * 3) by (cbn; ring). apply sqrt_square. lra. }
  unfold unit. rewrite E1, E2. cbn [map]. split; f_equal; [lra|f_equal; lra|lra|f_equal; lra].
Qed.
(** The generator moves on with every call: the same object gives different values for the same two data sets, called again
    or with the arguments exchanged. *)
Theorem C64_redraw_refuted : forall emd, Solver1 emd -> exists (normals : nat -> nat -> nat -> nat * list (list R)) g g',
  Generator normals /\ (forall g k, NonZero (snd (normals g k 2%nat))) /\
  sliced_distance nat normals emd g 2 [[0; 0]] 2 [[1; 0]] 1 = (g', Ok (XR 1)) /\
  snd (sliced_distance nat normals emd g' 2 [[0; 0]] 2 [[1; 0]] 1) = Ok (XR 0) /\
  snd (sliced_distance nat normals emd g' 2 [[1; 0]] 2 [[0; 0]] 1) = Ok (XR 0).
Proof.
  intros emd HS. exists Toy.normals, 0%nat, 1%nat. split; [exact Toy.generator|]. split; [exact Toy.nonzero|].
  destruct unit_axis as [U1 U2].
  assert (V : forall a b, sqrt (vdist [a] [b] ^ 2) = Rabs (a - b)). { intros a b. rewrite vdist_one, <- Rsqr_pow2. apply sqrt_Rsqr_abs. }
  split; [|split].
  - rewrite (surjective_pairing (sliced_distance nat Toy.normals emd 0%nat 2 [[0; 0]] 2 [[1; 0]] 1)). rewrite (single_value emd 0%nat _ _ HS), V. change (map (fun i => if (i =? 0 mod 2)%nat then 3 else 0) (seq 0 2)) with [3; 0].
    rewrite U1. match goal with |- (?a, _) = _ => change a with 1%nat end. do 3 f_equal. replace (inner [1; 0] [0; 0] - inner [1; 0] [1; 0]) with (-(1)) by (cbn; ring). rewrite Rabs_Ropp. apply Rabs_R1.
  - rewrite (single_value emd 1%nat _ _ HS), V. change (map (fun i => if (i =? 1 mod 2)%nat then 3 else 0) (seq 0 2)) with [0; 3]. rewrite U2. do 2 f_equal. replace (inner [0; 1] [0; 0] - inner [0; 1] [1; 0]) with 0 by (cbn; ring). apply Rabs_R0.
  - rewrite (single_value emd 1%nat _ _ HS), V. change (map (fun i => if (i =? 1 mod 2)%nat then 3 else 0) (seq 0 2)) with [0; 3]. rewrite U2. do 2 f_equal. replace (inner [0; 1] [1; 0] - inner [0; 1] [0; 0]) with 0 by (cbn; ring). apply Rabs_R0.
Qed.
Print Assumptions C64_redraw_refuted.
(** The hypotheses of the theorems: a generator, a solver, and data sets in two columns. *)
Example C64_example : Generator Toy.normals /\ NonZero (snd (Toy.normals 0 50 2)%nat) /\ (exists emd, Solver1 emd) /\
  Data 2 [[0; 0]; [1; 5]] /\ Data 2 [[2; 2]; [1; 5]; [7; 1]].
Proof.
  split; [exact Toy.generator|]. split; [apply Toy.nonzero|]. split; [exact C64_solver_exists|]. split; (split; [discriminate|repeat constructor]).
Qed.
