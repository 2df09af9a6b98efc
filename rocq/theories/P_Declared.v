(** C97: declared ranges of the distances, and the distances SABC accepts. *)
From Coq Require Import Reals Lra Lia Permutation.
From Verif Require Import M_Base M_Num M_XReal M_MMD M_Stats M_Distance M_KNN M_Wass M_Sliced M_Declared S_Stats S_Distance S_MMD S_KNN S_Wass S_Sliced
  L_PMC L_Stats L_Distance L_PosDef L_MMD L_KNN L_Joint L_Wass P_Distance P_MMD P_KNN P_Wass P_Sliced.
Open Scope R_scope.

(** v does not exceed m *)
Definition within (v m : xr) : Prop := m = XInf \/ v = XNaN \/ v = XNInf \/ exists r b, v = XR r /\ m = XR b /\ r <= b.
(** the classifier of LogReg predicts one label per row; the score of PenLogReg is a fraction *)
Definition Usable (o : object) : Prop :=
  match o with OLogReg fit => forall X y, length (fit X y) = length X | OPenLogReg score => forall X y g, 0 <= score X y g <= 1 | _ => True end.
(** MMD and EnergyDistance: the kernel is symmetric, and positive definite or minus a distance of negative type *)
Definition FairKernel (p : nat) (o : object) : Prop :=
  match o with
  | OMMD kern _ | OEnergy kern _ => exists k, Uses kern k /\ Symmetric k /\ (PositiveDefinite p k \/ NegativeType p (fun x y => - k x y))
  | _ => True
  end.

Section C97.
Variable G : Type.
Variable normals : G -> nat -> nat -> G * list (list R).
Variable emd : list xr -> list xr -> list xr -> list xr -> xr.
Variable emd2 : list xr -> list xr -> list (list R) -> xr.
Notation distance := (object_distance G normals emd emd2).

(** C97 (maximum): no estimate exceeds the maximum its object reports. *)
Theorem C97_maximum : forall g o p s1 s2 v, Usable o -> distance g o p s1 s2 = Ok v -> within v (object_max o).
Proof.
  intros g o p s1 s2 v HU H. destruct o; cbn [object_max]; try (left; reflexivity); cbn [object_distance] in H; cbn [Usable] in HU; right.
  - unfold plain in H. destruct (Nat.eq_dec (length s1) (length s2)) as [E|E].
    + destruct (proj2 (C39_penlogreg score s1 s2) E _ eq_refl (HU _ _ _)) as (d & Ed & _ & _ & Hd). rewrite Ed in H. injection H as <-.
      right. right. exists d, logreg_max. split; [reflexivity|]. split; [reflexivity | exact Hd].
    + unfold penlogreg in H. destruct (Nat.eqb_spec (length s2) (length s1)); [congruence | discriminate H].
  - unfold plain in H. destruct s1 as [|x s1]; [discriminate H|]. destruct s2 as [|y s2]; [discriminate H|].
    destruct (C39_logreg fit (x :: s1) (y :: s2) _ ltac:(discriminate) ltac:(discriminate) eq_refl) as (d & Ed & _ & Hd & _).
    { rewrite HU, app_length. reflexivity. }
    rewrite Ed in H. injection H as <-. right. right. exists d, logreg_max. split; [reflexivity|]. split; [reflexivity | apply Hd].
  - destruct (C39_hellinger_range k p s1 s2 v H) as [-> | [-> | (r & -> & Hr)]]; [left; reflexivity | right; left; reflexivity|].
    right. right. exists r, hellinger_max. split; [reflexivity|]. split; [reflexivity | exact Hr].
Qed.

(** C97 (SABC): the objects SABC accepts have finite, non-negative estimates on every pair of data sets, the squared Hellinger estimate excepted.
    The transport solvers are exact, and a sliced distance has at least one direction and draws no zero vector. *)
Theorem C97_sabc : Solver emd2 -> Generator normals -> Solver1 emd -> forall os o, sabc_check os = Ok tt -> In o os -> (forall k, o <> OHellinger k) ->
  forall g p s1 s2, s1 <> [] -> s2 <> [] -> Rows p s1 -> Rows p s2 -> FairKernel p o ->
  (forall k, o = OSliced k -> (0 < k)%nat /\ NonZero (snd (normals g k p))) ->
  exists v, distance g o p s1 s2 = Ok (XR v) /\ 0 <= v.
Proof.
  intros HS HG HS1 os o Hc Hin HH g p s1 s2 N1 N2 R1 R2 HK HSl.
  assert (Hp : is_divergence o && negb (always_positive o) = false).
  { unfold sabc_check in Hc. destruct (existsb _ os) eqn:E; [discriminate Hc|]. destruct (is_divergence o && negb (always_positive o)) eqn:E'; [|reflexivity].
    exfalso. assert (existsb (fun o => is_divergence o && negb (always_positive o)) os = true); [|congruence]. apply existsb_exists. exists o. split; assumption. }
  destruct o; cbn in Hp; try discriminate Hp; cbn [object_distance].
  - exists (mean_dist s1 s2). split; [apply (euclid_fin p p); assumption|]. apply (C37_metric p s1 s2 s1); assumption.
  - assert (G1 : GoodWeights (length s1) None) by (split; [destruct s1; [congruence | cbn; lia] | exact I]).
    assert (G2 : GoodWeights (length s2) None) by (split; [destruct s2; [congruence | cbn; lia] | exact I]).
    destruct (C53_value emd2 HS s1 s2 None None G1 G2) as (v & E & _). exists v. split; [exact E|]. exact (C53_nonneg emd2 HS s1 s2 None None v G1 G2 E).
  - destruct (HSl _ eq_refl) as [Hk Hn]. exact (C64_nonneg G normals emd HG HS1 g p s1 s2 n_projections N1 N2 Hk Hn).
  - destruct biased; [|discriminate Hp]. destruct HK as (k & HU & Hs & Hk). destruct (C38_nonneg kern k p s1 s2 HU Hs Hk R1 R2 N1 N2) as (v & E & Hv).
    exists v. unfold plain. rewrite E. split; [reflexivity | exact Hv].
  - destruct biased; [|discriminate Hp]. destruct HK as (k & HU & Hs & Hk). destruct (C38_nonneg kern k p s1 s2 HU Hs Hk R1 R2 N1 N2) as (v & E & Hv).
    exists v. unfold plain. rewrite E. split; [reflexivity | exact Hv].
  - exfalso. exact (HH k eq_refl).
Qed.

(** C97 (refusals): SABC refuses no class needlessly.  Every class it refuses has an object with a negative estimate. *)
Theorem C97_refusals : forall g,
  (sabc_check [OKL 1] = Err RuntimeError /\ exists s1 s2 r, distance g (OKL 1) 1 s1 s2 = Ok (XR r) /\ r < 0)
  /\ (sabc_check [OGamma 1 1] = Err RuntimeError /\ exists s1 s2 r, distance g (OGamma 1 1) 1 s1 s2 = Ok (XR r) /\ r < 0)
  /\ (exists fit, Usable (OLogReg fit) /\ sabc_check [OLogReg fit] = Err RuntimeError /\ exists s1 s2 r, distance g (OLogReg fit) 1 s1 s2 = Ok (XR r) /\ r < 0)
  /\ (exists score, Usable (OPenLogReg score) /\ sabc_check [OPenLogReg score] = Err RuntimeError /\ exists s1 s2 r, distance g (OPenLogReg score) 1 s1 s2 = Ok (XR r) /\ r < 0)
  /\ (exists kern, FairKernel 1 (OMMD kern false) /\ sabc_check [OMMD kern false] = Err RuntimeError /\ exists s1 s2 r, distance g (OMMD kern false) 1 s1 s2 = Ok (XR r) /\ r < 0)
  /\ (exists kern, energy_init (Euclidean 1) = Ok kern /\ sabc_check [OEnergy kern false] = Err RuntimeError /\ exists s1 s2 r, distance g (OEnergy kern false) 1 s1 s2 = Ok (XR r) /\ r < 0).
Proof.
  intros g. split; [|split; [|split; [|split; [|split]]]].
  - split; [reflexivity|]. exists [[0]; [2]], [[/2]; [3/2]]. eexists. split.
    + cbn [object_distance]. apply (C39_kl 1 1 [[0]; [2]] [[/2]; [3/2]] [2; 2] [/2; /2]); cbn [length]; try lia; try (repeat constructor; lra); nb.
    + cbn [length Nat.sub]. unfold sum2. cbn [combine map fst snd]. unfold total. cbn [fold_right INR].
      replace (/ 2 / 2) with (/ 4) by field. rewrite Rplus_0_r. replace ((1 + 1) / 1) with 2 by field. replace (1 / (1 + 1) * (ln (/ 4) + ln (/ 4))) with (ln (/ 4)) by field.
      rewrite ln_Rinv by lra. assert (ln 2 < ln 4) by (apply ln_increasing; lra). lra.
  - split; [reflexivity|]. exists [[0]; [2]], [[/2]; [3/2]]. eexists. split.
    + cbn [object_distance]. apply (C39_gamma 1 1 1 [[0]; [2]] [[/2]; [3/2]] [2; 2] [/2; /2] [1; 1]); cbn [length]; try lia; try lra; try (repeat constructor; lra); nb.
    + cbn [length Nat.sub]. unfold total. cbn [map fold_right INR]. rewrite !Rmult_1_l, !Rpower_1 by lra. rewrite Rinv_inv, Rinv_1.
      replace ((2 + (2 + 0)) / ((1 + 1) * (1 + 1))) with 1 by field. replace (Rpower 1 (1 + 1)) with 1 by (unfold Rpower; rewrite ln_1, Rmult_0_r, exp_0; reflexivity).
      replace ((/ 2 + (/ 2 + 0)) / ((1 + 1) * 1) * ((1 + (1 + 0)) / ((1 + 1) * 1)) / 1) with (/ 2) by field.
      rewrite ln_Rinv by lra. assert (0 < ln 2) by (rewrite <- ln_1; apply ln_increasing; lra). replace (1 / (1 + 1)) with (/ 2) by field. lra.
  - exists (fun X y => map (fun _ => true) X). split; [intros X y; apply map_length|]. split; [reflexivity|]. exists [[0]; [1]], [[2]]. eexists. split.
    + reflexivity.
    + unfold accuracy, rn. cbn. lra.
  - exists (fun _ _ _ => 0). split; [intros X y l; lra|]. split; [reflexivity|]. exists [[0]], [[1]]. eexists. split; [reflexivity | lra].
  - exists (Vectorised (gaussian 1)). split.
    + exists (gaussian 1). destruct (C38_gaussian 1 1 ltac:(lra)) as (k & Ek & _ & Hs & Hp). injection Ek as <-. split; [left; reflexivity|]. split; [exact Hs | left; exact Hp].
    + split; [reflexivity|]. destruct C38_unbiased_refuted as (E & (v & Ev & Hv) & _). rewrite E in Ev. exists [[0]; [1]], [[0]; [1]], v.
      split; [cbn [object_distance]; unfold plain; rewrite Ev; reflexivity | exact Hv].
  - destruct (C38_energy 1 1 [[0]] [[0]] ltac:(lra)) as (kern & _ & Ek & _); [repeat constructor | repeat constructor | discriminate | discriminate|].
    destruct (proj2 (C38_euclidean 1) ltac:(lra)) as (d & Ed & _ & _ & Hsym & _).
    exists kern. split; [exact Ek|]. split; [reflexivity|]. exists [[0]; [1]], [[0]; [1]].
    unfold def_euclidean in Ed. destruct (Rle_dec 1 0); [lra|]. destruct (Rlt_dec 2 1); [lra|]. destruct (Req_EM_T 1 1); [|congruence]. injection Ed as <-.
    unfold energy_init, def_euclidean in Ek. destruct (Rle_dec 1 0); [lra|]. destruct (Rlt_dec 2 1); [lra|]. destruct (Req_EM_T 1 1); [|congruence]. cbn in Ek. injection Ek as <-.
    eexists. split.
    + cbn [object_distance]. unfold plain. rewrite (proj2 (C38_value (Pairwise (fun x y => - M_MMD.norm x y)) (fun x y => - M_MMD.norm x y) [[0]; [1]] [[0]; [1]] ltac:(right; split; [reflexivity | intros x y; rewrite Hsym; reflexivity]))); [reflexivity | cbn; lia | cbn; lia].
    + unfold MMD2_distinct, mean_distinct, mean_pairs, average, distinct_pairs. cbn [length seq flat_map nth_error Nat.eqb app map fst snd total fold_right].
      unfold M_MMD.norm, rsuml. cbn [combine map fst snd fold_right INR]. replace ((0 - 0) * (0 - 0) + 0) with 0 by ring. replace ((1 - 1) * (1 - 1) + 0) with 0 by ring.
      replace ((0 - 1) * (0 - 1) + 0) with 1 by ring. replace ((1 - 0) * (1 - 0) + 0) with 1 by ring. rewrite sqrt_0, sqrt_1. unfold total. cbn [fold_right]. lra.
Qed.
End C97.

Print Assumptions C97_maximum.
Print Assumptions C97_sabc.
Print Assumptions C97_refusals.

(** Two interleaved rows of n points, three apart: 0, 3, 6, ... and 1, 4, 7, ... *)
Definition points (c : R) (n : nat) : list vec := map (fun i => [3 * INR i + c]) (seq 0 n).
Lemma points_len c n : length (points c n) = n.
Proof. unfold points. rewrite map_length, seq_length. reflexivity. Qed.
Lemma filter_map_len {A B} (f : B -> bool) (h : A -> B) l : length (filter f (map h l)) = length (filter (fun x => f (h x)) l).
Proof. induction l as [|x l IH]; [reflexivity|]. cbn [map filter]. destruct (f (h x)); cbn [length]; rewrite IH; reflexivity. Qed.
Lemma gap i j : i = j \/ INR i + 1 <= INR j \/ INR j + 1 <= INR i.
Proof. destruct (Nat.lt_trichotomy i j) as [H | [H | H]]; [right; left | left; exact H | right; right]; rewrite <- S_INR; apply le_INR; lia. Qed.
Lemma all_same_distance {A} (P : A -> R -> Prop) (f : nat -> A) d l : (forall i, In i l -> P (f i) d) -> Forall2 P (map f l) (repeat d (length l)).
Proof. induction l as [|i l IH]; intros H; [constructor|]. cbn. constructor; [apply H; left; reflexivity | apply IH; intros j Hj; apply H; right; exact Hj]. Qed.
Lemma own_neighbours c n : (2 <= n)%nat -> Neighbours 2 (points c n) (points c n) (repeat 3 n).
Proof.
  intros Hn. unfold Neighbours. replace (repeat 3 n) with (repeat 3 (length (seq 0 n))) by (rewrite seq_length; reflexivity). unfold points at 2. apply all_same_distance. intros i Hi. apply in_seq in Hi.
  assert (D : forall j, vdist [3 * INR i + c] [3 * INR j + c] = Rabs (3 * (INR i - INR j))) by (intros j; rewrite vd1; f_equal; ring).
  assert (Hj : exists j, (j < n)%nat /\ j <> i /\ Rabs (3 * (INR i - INR j)) = 3).
  { destruct (Nat.eq_dec i 0) as [-> | Hi0].
    - exists 1%nat. split; [lia|]. split; [lia|]. cbn. rewrite Rabs_left1 by lra. lra.
    - exists (i - 1)%nat. split; [lia|]. split; [lia|]. rewrite minus_INR by lia. cbn. rewrite Rabs_pos_eq by lra. lra. }
  destruct Hj as (j & Hj & Hji & Ej). unfold points. rewrite map_map. split; [|split].
  - apply in_map_iff. exists j. split; [rewrite D; exact Ej | apply in_seq; lia].
  - unfold below. rewrite filter_map_len. assert (Hl : Nat.le (length (filter (fun x : nat => if Rlt_dec (vdist [3 * INR i + c] [3 * INR x + c]) 3 then true else false) (seq 0 n))) (length [i])); [|cbn in Hl; lia].
    apply NoDup_incl_length; [apply NoDup_filter, seq_NoDup|]. intros x Hx. apply filter_In in Hx. destruct Hx as [_ Hx]. rewrite D in Hx.
    destruct (Rlt_dec (Rabs (3 * (INR i - INR x))) 3) as [H|]; [|discriminate Hx]. left. destruct (gap i x) as [E | [E | E]]; [exact E | |]; exfalso.
    + rewrite Rabs_left1 in H by lra. lra.
    + rewrite Rabs_pos_eq in H by lra. lra.
  - unfold upto. rewrite filter_map_len. change 2%nat with (length [i; j]). apply NoDup_incl_length; [constructor; [intros [E | []]; congruence | constructor; [intros [] | constructor]]|].
    intros x [<- | [<- | []]]; apply filter_In; (split; [apply in_seq; lia|]); rewrite D.
    + replace (INR i - INR i) with 0 by ring. rewrite Rmult_0_r, Rabs_R0. destruct (Rle_dec 0 3); [reflexivity | lra].
    + rewrite Ej. destruct (Rle_dec 3 3); [reflexivity | lra].
Qed.
Lemma other_neighbours c e n : Rabs (c - e) = 1 -> Neighbours 1 (points e n) (points c n) (repeat 1 n).
Proof.
  intros Hc. unfold Neighbours. replace (repeat 1 n) with (repeat 1 (length (seq 0 n))) by (rewrite seq_length; reflexivity). unfold points at 2. apply all_same_distance. intros i Hi. apply in_seq in Hi.
  assert (D : forall j, vdist [3 * INR i + c] [3 * INR j + e] = Rabs (3 * (INR i - INR j) + (c - e))) by (intros j; rewrite vd1; f_equal; ring).
  assert (Ei : Rabs (3 * (INR i - INR i) + (c - e)) = 1) by (replace (3 * (INR i - INR i) + (c - e)) with (c - e) by ring; exact Hc).
  assert (Hb : -1 <= c - e <= 1) by (unfold Rabs in Hc; destruct (Rcase_abs (c - e)); lra). unfold points. rewrite map_map. split; [|split].
  - apply in_map_iff. exists i. split; [rewrite D; exact Ei | apply in_seq; lia].
  - unfold below. rewrite filter_map_len. assert (Hl : Nat.le (length (filter (fun x : nat => if Rlt_dec (vdist [3 * INR i + c] [3 * INR x + e]) 1 then true else false) (seq 0 n))) (length (@nil nat))); [|cbn in Hl; lia].
    apply NoDup_incl_length; [apply NoDup_filter, seq_NoDup|]. intros x Hx. apply filter_In in Hx. destruct Hx as [_ Hx]. rewrite D in Hx.
    destruct (Rlt_dec (Rabs (3 * (INR i - INR x) + (c - e))) 1) as [H|]; [|discriminate Hx]. exfalso. destruct (gap i x) as [<- | [E | E]]; [lra | |].
    + rewrite Rabs_left1 in H by lra. lra.
    + rewrite Rabs_pos_eq in H by lra. lra.
  - unfold upto. rewrite filter_map_len. change 1%nat with (length [i]) at 1. apply NoDup_incl_length; [constructor; [intros [] | constructor]|].
    intros x [<- | []]; apply filter_In; (split; [apply in_seq; lia|]); rewrite D, Ei. destruct (Rle_dec 1 1); [reflexivity | lra].
Qed.
Lemma sum2_repeat f a b n : sum2 f (repeat a n) (repeat b n) = INR n * f a b.
Proof. unfold sum2. induction n as [|n IH]; [cbn; ring|]. rewrite S_INR. cbn [repeat combine map fst snd]. rewrite total_cons, IH. ring. Qed.
(** C97, the general claim fails: SABC accepts the squared Hellinger distance, whose estimate (a sum that is not divided by the number of points) has no
    lower bound on data sets of distinct points. *)
Theorem C97_hellinger_refuted : sabc_check [OHellinger 1] = Ok tt /\
  forall G normals emd emd2 g (bound : R), exists s1 s2 r, Rows 1 s1 /\ Rows 1 s2 /\ NoDup (s1 ++ s2) /\
    object_distance G normals emd emd2 g (OHellinger 1) 1 s1 s2 = Ok (XR r) /\ r < bound.
Proof.
  split; [reflexivity|]. intros G normals emd emd2 g bound. assert (Hm0 : exists m, 2 - bound < INR m) by (exists (Z.to_nat (Rdefinitions.up (2 - bound))); apply Rlt_le_trans with (1 := proj1 (archimed (2 - bound))); rewrite INR_IZR_INZ; apply IZR_le; lia). destruct Hm0 as [m Hm]. set (n := S (S m)). exists (points 0 n), (points 1 n).
  assert (Hn : (2 <= n)%nat) by (unfold n; lia). eexists. split; [|split; [|split; [|split]]].
  - apply Forall_map, Forall_forall. reflexivity.
  - apply Forall_map, Forall_forall. reflexivity.
  - unfold points. assert (Hinj : forall c, NoDup (map (fun i => [3 * INR i + c]) (seq 0 n))).
    { intros c. apply FinFun.Injective_map_NoDup; [|apply seq_NoDup]. intros a b E. injection E as E. apply INR_eq. lra. }
    assert (Hd : forall x, In x (map (fun i => [3 * INR i + 0]) (seq 0 n)) -> ~ In x (map (fun i => [3 * INR i + 1]) (seq 0 n))).
    { intros x Hx Hy. apply in_map_iff in Hx, Hy. destruct Hx as (a & <- & _), Hy as (b & E & _). injection E as E. destruct (gap a b) as [<- | [K | K]]; lra. }
    revert Hd. generalize (Hinj 0) (Hinj 1). generalize (map (fun i => [3 * INR i + 0]) (seq 0 n)) (map (fun i => [3 * INR i + 1]) (seq 0 n)).
    induction l as [|x l IH]; intros l0 H0 H1 Hd; [exact H1|]. inversion H0 as [|x' l' Hx Hl]; subst. cbn. constructor.
    + intros Hi. apply in_app_or in Hi. destruct Hi as [Hi | Hi]; [exact (Hx Hi) | exact (Hd x (or_introl eq_refl) Hi)].
    + apply IH; [exact Hl | exact H1 | intros y Hy; apply Hd; right; exact Hy].
  - cbn [object_distance]. apply (C39_hellinger 1 1 (points 0 n) (points 1 n) (repeat 3 n) (repeat 1 n) (repeat 3 n) (repeat 1 n)); rewrite ?points_len; try lia;
      try (apply own_neighbours; exact Hn); try (apply other_neighbours; first [rewrite Rabs_left1 by lra; lra | rewrite Rabs_pos_eq by lra; lra]); try (apply Forall_forall; intros x Hx; apply repeat_spec in Hx; lra).
  - rewrite !points_len, !sum2_repeat. replace (INR 1 / 2) with (/ 2) by (cbn; field). replace (3 / 1) with 3 by field. rewrite Rpower_sqrt by lra.
    assert (H3 : 1 <= sqrt 3) by (rewrite <- sqrt_1 at 1; apply sqrt_le_1; lra).
    assert (Hp : 2 <= INR n) by (change 2 with (INR 2); apply le_INR; exact Hn).
    assert (Hs : / 2 <= sqrt (INR (n - 1) / INR n)).
    { replace (/ 2) with (sqrt (/ 2 * / 2)) by (apply sqrt_square; lra). apply sqrt_le_1; [lra | apply Rmult_le_pos; [apply pos_INR | left; apply Rinv_0_lt_compat; lra] |].
      rewrite minus_INR by lia. cbn [INR]. apply (Rmult_le_reg_r (INR n)); [lra|]. unfold Rdiv. rewrite (Rmult_assoc (INR n - 1)), Rinv_l by lra. lra. }
    assert (Hm' : INR n = INR m + 2) by (unfold n; rewrite !S_INR; ring).
    assert (Hq : INR n * 1 <= INR n * sqrt 3) by (apply Rmult_le_compat_l; lra).
    assert (Hr : / 2 * (INR n * 1) <= sqrt (INR (n - 1) / INR n) * (INR n * sqrt 3)) by (apply Rmult_le_compat; lra). lra.
Qed.
Print Assumptions C97_hellinger_refuted.

(** The biased estimator declares non-negative estimates for every kernel; one that is not positive definite has negative ones. *)
Theorem C97_kernel_refuted : exists k kern, mmd_init (Callable k) = Ok kern /\ Symmetric k /\ sabc_check [OMMD kern true] = Ok tt /\
  forall G normals emd emd2 g, exists r, object_distance G normals emd emd2 g (OMMD kern true) 1 [[0]] [[1]] = Ok (XR r) /\ r < 0.
Proof.
  set (k := fun x y : vec => - (hd 0 x * hd 0 y)). assert (Hs : Symmetric k) by (intros x y; unfold k; ring).
  exists k, (Pairwise k). split; [reflexivity|]. split; [exact Hs|]. split; [reflexivity|]. intros G normals emd emd2 g. eexists. split.
  - cbn [object_distance]. unfold plain. rewrite (proj1 (C38_value (Pairwise k) k [[0]] [[1]] (or_intror (conj eq_refl Hs)))); [reflexivity | discriminate | discriminate].
  - unfold MMD2, mean_pairs, average, k. cbn. unfold total. cbn. lra.
Qed.
Print Assumptions C97_kernel_refuted.

(** A case: SABC accepts a Euclidean and a Wasserstein distance together, and refuses a list with the default MMD *)
Example C97_case : sabc_check [OEuclidean; OWasserstein; OMMD (Vectorised (gaussian 1)) true; OSliced 3] = Ok tt
  /\ sabc_check [OEuclidean; OMMD (Vectorised (gaussian 1)) mmd_default_biased] = Err RuntimeError
  /\ FairKernel 2 (OMMD (Vectorised (gaussian 1)) true) /\ Rows 2 [[0; 1]; [2; 5]] /\ Usable (OLogReg (fun X y => map (fun _ => true) X)).
Proof.
  split; [reflexivity|]. split; [reflexivity|]. split; [|split; [repeat constructor | intros X y; apply map_length]].
  exists (gaussian 1). destruct (C38_gaussian 1 2 ltac:(lra)) as (k & Ek & _ & Hs & Hp). injection Ek as <-. split; [left; reflexivity|]. split; [exact Hs | left; exact Hp].
Qed.
(** the hypotheses on solvers and generator of C97_sabc can be met *)
Example C97_solvers : exists emd2 emd (normals : nat -> nat -> nat -> nat * list (list R)), Solver emd2 /\ Solver1 emd /\ Generator normals /\ forall g, NonZero (snd (normals g 3%nat 2%nat)).
Proof.
  destruct C53_solver_exists as [emd2 H2]. destruct C64_solver_exists as [emd H1]. exists emd2, emd. destruct (C64_redraw_refuted emd H1) as (normals & g & g' & HG & HN & _).
  exists normals. split; [exact H2|]. split; [exact H1|]. split; [exact HG|]. intros h. apply HN.
Qed.
