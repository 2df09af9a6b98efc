(** C38: maximum mean discrepancy and energy distance. *)
From Coq Require Import Reals Lra Lia Permutation.
From Verif Require Import M_Base M_MMD S_Stats S_Distance S_MMD L_Stats L_Distance L_PosDef L_MMD.
Open Scope R_scope.

(** A kernel object computes with the function k: a vectorised kernel, or one called pair by pair, which the code assumes to be symmetric. *)
Definition Uses (kern : kernel) (k : list R -> list R -> R) : Prop := kern = Vectorised k \/ (kern = Pairwise k /\ Symmetric k).

Lemma gram_uses kern k s1 s2 : Uses kern k -> gram kern s1 s2 = (gram_all k s1 s1, gram_all k s2 s2, gram_all k s1 s2).
Proof. intros [-> | [-> Hk]]; cbn [gram]; [reflexivity|]. rewrite !gram_sym_all by exact Hk. reflexivity. Qed.
Lemma gram_all_len k s1 s2 : length (gram_all k s1 s2) = length s1.
Proof. apply map_length. Qed.
Lemma pydiv_ok a b : b <> 0%nat -> pydiv a b = Ok (a / INR b).
Proof. intros H. unfold pydiv. destruct (Nat.eqb_spec b 0); [contradiction | reflexivity]. Qed.

(** The entry of a Gram matrix is the kernel of the two rows: in both modes for the mixed matrix, and on and above the diagonal for the others; below the
    diagonal a kernel called pair by pair is mirrored. *)
Theorem C38_gram kern k s1 s2 i j xi xj K11 K22 K12 : (kern = Vectorised k \/ kern = Pairwise k) -> gram kern s1 s2 = (K11, K22, K12) -> nth_error s1 i = Some xi -> 
  (nth_error s2 j = Some xj -> length K12 = length s1 /\ length (nth i K12 []) = length s2 /\ nth j (nth i K12 []) 0 = k xi xj) /\
  (nth_error s1 j = Some xj -> length K11 = length s1 /\ length (nth i K11 []) = length s1 /\ nth j (nth i K11 []) 0 = if ((j <? i)%nat && match kern with Vectorised _ => false | Pairwise _ => true end)%bool then k xj xi else k xi xj).
Proof.
  intros Hkern Hg Hi. assert (Hil : (i < length s1)%nat) by (apply nth_error_Some; congruence). rewrite (row_nth s1 i Hil) in Hi. injection Hi as Hi.
  assert (H12 : K12 = gram_all k s1 s2) by (destruct Hkern as [-> | ->]; cbn [gram] in Hg; congruence). split; intros Hj.
  - assert (Hjl : (j < length s2)%nat) by (apply nth_error_Some; congruence). rewrite (row_nth s2 j Hjl) in Hj. injection Hj as Hj. subst. destruct (gram_all_shape k s1 s2) as [S1 S2].
    split; [exact S1|]. split; [apply S2, Hil|]. apply gram_all_entry; assumption.
  - assert (Hjl : (j < length s1)%nat) by (apply nth_error_Some; congruence). rewrite (row_nth s1 j Hjl) in Hj. injection Hj as Hj. subst. destruct Hkern as [-> | ->]; cbn [gram] in Hg; inversion Hg; subst.
    + destruct (gram_all_shape k s1 s1) as [S1 S2]. split; [exact S1|]. split; [apply S2, Hil|]. rewrite Bool.andb_false_r. apply gram_all_entry; assumption.
    + destruct (gram_sym_spec k s1) as [[S1 S2] E]. split; [exact S1|]. split; [apply S2, Hil|]. rewrite Bool.andb_true_r. fold (entry (gram_sym k s1) i j). rewrite E by assumption.
      destruct (Nat.ltb_spec j i); [rewrite Nat.min_r, Nat.max_l by lia; reflexivity | rewrite Nat.min_l, Nat.max_r by lia; reflexivity].
Qed.

(** The biased estimate is the squared distance of the mean embeddings of the two samples; the unbiased one leaves out the pairs of a point with itself. *)
Theorem C38_value kern k s1 s2 : Uses kern k ->
  (s1 <> [] -> s2 <> [] -> mmd_distance kern true s1 s2 = Ok (MMD2 k s1 s2)) /\
  ((2 <= length s1)%nat -> (2 <= length s2)%nat -> mmd_distance kern false s1 s2 = Ok (MMD2_distinct k s1 s2)).
Proof.
  intros Hu. unfold mmd_distance. rewrite (gram_uses _ _ s1 s2 Hu). split; intros H1 H2.
  - unfold mmd_V. rewrite !gram_all_len. assert (L1 : length s1 <> 0%nat) by (destruct s1; [congruence | discriminate]). assert (L2 : length s2 <> 0%nat) by (destruct s2; [congruence | discriminate]).
    rewrite !pydiv_ok by (intros E; apply Nat.eq_mul_0 in E; tauto). cbn [rthen]. rewrite !msum_all. unfold MMD2. rewrite !mean_pairs_sum. f_equal. unfold Rdiv. ring.
  - unfold mmd_unbiased. rewrite !gram_all_len. rewrite !pydiv_ok by (intros E; apply Nat.eq_mul_0 in E; lia). cbn [rthen]. rewrite !offsum_diag, !msum_all. unfold MMD2_distinct, mean_distinct, average.
    rewrite !map_length, !distinct_len, !mean_pairs_sum. assert (E : forall xs, total (map (fun xy => k (fst xy) (snd xy)) (distinct_pairs xs)) = offsum k xs) by apply distinct_total. rewrite !E. f_equal. unfold Rdiv. ring.
Qed.

(** An estimate is refused (ZeroDivisionError) exactly for an empty data set, and the unbiased one also for a data set with a single point. *)
Theorem C38_refused kern k s1 s2 : Uses kern k ->
  (mmd_distance kern true s1 s2 = Err ZeroDivisionError <-> s1 = [] \/ s2 = []) /\ (mmd_distance kern false s1 s2 = Err ZeroDivisionError <-> (length s1 <= 1)%nat \/ (length s2 <= 1)%nat).
Proof.
  intros Hu. split.
  - split.
    + intros H. destruct s1 as [|x s1]; [left; reflexivity|]. destruct s2 as [|y s2]; [right; reflexivity|]. rewrite (proj1 (C38_value kern k (x :: s1) (y :: s2) Hu)) in H by discriminate. discriminate.
    + intros H. unfold mmd_distance. rewrite (gram_uses _ _ s1 s2 Hu). unfold mmd_V. rewrite !gram_all_len. destruct H as [-> | ->]; [reflexivity|]. cbn [length]. rewrite Nat.mul_0_r. unfold pydiv at 2 3. cbn [Nat.eqb Nat.mul]. unfold pydiv. destruct (length s1 * length s1 =? 0)%nat; reflexivity.
  - split.
    + intros H. destruct (le_lt_dec (length s1) 1); [left; assumption|]. destruct (le_lt_dec (length s2) 1); [right; assumption|]. rewrite (proj2 (C38_value kern k s1 s2 Hu)) in H by lia. discriminate.
    + intros H. unfold mmd_distance. rewrite (gram_uses _ _ s1 s2 Hu). unfold mmd_unbiased. rewrite !gram_all_len.
      assert (Hz : forall n, (n <= 1)%nat -> (n * (n - 1) = 0)%nat) by (intros [|[|n]] Hn; lia). destruct H as [H|H]; rewrite (Hz _ H); unfold pydiv; cbn [Nat.eqb]; [reflexivity|].
      destruct (length s1 * (length s1 - 1) =? 0)%nat; [reflexivity|]. cbn [rthen]. destruct (length s1 * length s2 =? 0)%nat; reflexivity.
Qed.

(** Exchanging the two data sets does not change either estimate; reordering the points of either data set does not either. *)
Theorem C38_symmetric kern k b s1 s2 : Symmetric k -> Uses kern k -> mmd_distance kern b s1 s2 = mmd_distance kern b s2 s1.
Proof.
  intros Hk Hu. destruct b.
  - destruct (list_eq_dec (list_eq_dec Req_EM_T) s1 []) as [E|E]; [|destruct (list_eq_dec (list_eq_dec Req_EM_T) s2 []) as [E'|E']].
    + rewrite (proj2 (proj1 (C38_refused kern k s1 s2 Hu))), (proj2 (proj1 (C38_refused kern k s2 s1 Hu))) by tauto. reflexivity.
    + rewrite (proj2 (proj1 (C38_refused kern k s1 s2 Hu))), (proj2 (proj1 (C38_refused kern k s2 s1 Hu))) by tauto. reflexivity.
    + rewrite (proj1 (C38_value kern k s1 s2 Hu)), (proj1 (C38_value kern k s2 s1 Hu)) by assumption. unfold MMD2. rewrite !mean_pairs_sum, (psums_sym k s2 s1 Hk). rewrite (Nat.mul_comm (length s2) (length s1)). f_equal. ring.
  - destruct (le_lt_dec (length s1) 1); [|destruct (le_lt_dec (length s2) 1)].
    + rewrite (proj2 (proj2 (C38_refused kern k s1 s2 Hu))), (proj2 (proj2 (C38_refused kern k s2 s1 Hu))) by tauto. reflexivity.
    + rewrite (proj2 (proj2 (C38_refused kern k s1 s2 Hu))), (proj2 (proj2 (C38_refused kern k s2 s1 Hu))) by tauto. reflexivity.
    + rewrite (proj2 (C38_value kern k s1 s2 Hu)), (proj2 (C38_value kern k s2 s1 Hu)) by lia. unfold MMD2_distinct. rewrite !mean_pairs_sum, (psums_sym k s2 s1 Hk). rewrite (Nat.mul_comm (length s2) (length s1)). f_equal. ring.
Qed.
Lemma mean_distinct_sum k xs : mean_distinct k xs = (psums k xs xs - total (map (fun x => k x x) xs)) / INR (length xs * (length xs - 1)).
Proof. unfold mean_distinct, average. rewrite map_length, distinct_len. rewrite <- distinct_perm_sum, <- distinct_total. reflexivity. Qed.
Theorem C38_order kern k b s1 s1' s2 s2' : Uses kern k -> Permutation s1 s1' -> Permutation s2 s2' -> mmd_distance kern b s1 s2 = mmd_distance kern b s1' s2'.
Proof.
  intros Hu P1 P2. pose proof (Permutation_length P1) as L1. pose proof (Permutation_length P2) as L2. destruct b.
  - assert (N : forall (l l' : list vec), Permutation l l' -> l <> [] -> l' <> []). { intros l l' HP Hl ->. apply Hl. apply Permutation_nil. symmetry. exact HP. }
    assert (N0 : forall (l l' : list vec), Permutation l l' -> l = [] -> l' = []). { intros l l' HP ->. apply Permutation_nil. exact HP. }
    destruct (list_eq_dec (list_eq_dec Req_EM_T) s1 []) as [E|E]; [|destruct (list_eq_dec (list_eq_dec Req_EM_T) s2 []) as [E'|E']].
    + rewrite (proj2 (proj1 (C38_refused kern k s1 s2 Hu))), (proj2 (proj1 (C38_refused kern k s1' s2' Hu))) by (left; eauto). reflexivity.
    + rewrite (proj2 (proj1 (C38_refused kern k s1 s2 Hu))), (proj2 (proj1 (C38_refused kern k s1' s2' Hu))) by (right; eauto). reflexivity.
    + rewrite (proj1 (C38_value kern k s1 s2 Hu)), (proj1 (C38_value kern k s1' s2' Hu)) by eauto. unfold MMD2. rewrite !mean_pairs_sum. rewrite <- L1, <- L2, (psums_perm k _ _ _ _ P1 P1), (psums_perm k _ _ _ _ P1 P2), (psums_perm k _ _ _ _ P2 P2). reflexivity.
  - destruct (le_lt_dec (length s1) 1) as [E|E]; [|destruct (le_lt_dec (length s2) 1) as [E'|E']].
    + rewrite (proj2 (proj2 (C38_refused kern k s1 s2 Hu))), (proj2 (proj2 (C38_refused kern k s1' s2' Hu))) by lia. reflexivity.
    + rewrite (proj2 (proj2 (C38_refused kern k s1 s2 Hu))), (proj2 (proj2 (C38_refused kern k s1' s2' Hu))) by lia. reflexivity.
    + rewrite (proj2 (C38_value kern k s1 s2 Hu)), (proj2 (C38_value kern k s1' s2' Hu)) by lia. unfold MMD2_distinct. rewrite !mean_distinct_sum, !mean_pairs_sum. rewrite <- L1, <- L2, (psums_perm k _ _ _ _ P1 P1), (psums_perm k _ _ _ _ P1 P2), (psums_perm k _ _ _ _ P2 P2).
      rewrite (total_perm _ _ (Permutation_map (fun x => k x x) P1)), (total_perm _ _ (Permutation_map (fun x => k x x) P2)). reflexivity.
Qed.

(** The biased estimate of a data set against itself (in any order) is 0. *)
Theorem C38_self_zero kern k s1 s2 : Uses kern k -> s1 <> [] -> Permutation s1 s2 -> mmd_distance kern true s1 s2 = Ok 0.
Proof.
  intros Hu Hne HP. rewrite (C38_order kern k true s1 s1 s2 s1 Hu (Permutation_refl s1) (Permutation_sym HP)). rewrite (proj1 (C38_value kern k s1 s1 Hu) Hne Hne). unfold MMD2. f_equal. ring.
Qed.

(** The biased estimate is never negative when the kernel is positive definite, or is minus a function of negative type. *)
Theorem C38_nonneg kern k p s1 s2 : Uses kern k -> Symmetric k -> PositiveDefinite p k \/ NegativeType p (fun x y => - k x y) -> Rows p s1 -> Rows p s2 -> s1 <> [] -> s2 <> [] ->
  exists v, mmd_distance kern true s1 s2 = Ok v /\ 0 <= v.
Proof.
  intros Hu Hs Hk R1 R2 N1 N2. exists (MMD2 k s1 s2). split; [apply C38_value; assumption|]. rewrite <- embed_qf by assumption. destruct Hk as [Hk|Hk].
  - specialize (Hk (embed s1 s2) (embed_on p s1 s2 R1 R2)). rewrite form_qf in Hk. exact Hk.
  - specialize (Hk (embed s1 s2) (embed_on p s1 s2 R1 R2) (embed_sum s1 s2 N1 N2)). rewrite form_qf in Hk.
    assert (E : qf (fun x y => - k x y) (embed s1 s2) = qf (fun x y => (-1) * k x y) (embed s1 s2)) by (apply (qf_ext (fun _ => True)); [apply Forall_forall; intros; exact I | intros; ring]). rewrite E, qf_scale in Hk. lra.
Qed.

(** The Gaussian kernel is exp(-|x-y|^2/(2 sigma^2)), symmetric and positive definite in every dimension. *)
Theorem C38_gaussian sigma p : sigma <> 0 -> exists k, mmd_init (Gaussian sigma) = Ok (Vectorised k) /\ (forall x y, k x y = exp (- (vdist x y) ^ 2 / (2 * sigma ^ 2))) /\ Symmetric k /\ PositiveDefinite p k.
Proof.
  intros Hs. exists (gaussian sigma). split; [reflexivity|]. assert (E : forall x y, gaussian sigma x y = exp (- / (2 * sigma ^ 2) * sq x y)).
  { intros x y. unfold gaussian. rewrite rsuml_total. fold (sq x y). assert (Es : total (map (fun ab : R * R => (fst ab - snd ab) * (fst ab - snd ab)) (combine x y)) = sq x y) by (unfold sq; apply f_equal, map_ext; intros; ring). rewrite Es. f_equal. unfold Rdiv. ring. }
  assert (Hp : 0 < sigma ^ 2) by (rewrite <- Rsqr_pow2; apply Rsqr_pos_lt; exact Hs). split; [|split].
  - intros x y. rewrite E, vdist_sq. f_equal. rewrite <- (Rsqr_pow2 (sqrt (sq x y))), Rsqr_sqrt by apply sq_nn. unfold Rdiv. ring.
  - intros x y. rewrite !E, sq_sym. reflexivity.
  - intros l Hl. rewrite form_qf. rewrite (qf_ext (dim p) (gaussian sigma) (fun x y => exp (- / (2 * sigma ^ 2) * sq x y)) l Hl) by (intros; apply E).
    apply (gauss_PosDef p (/ (2 * sigma ^ 2))); [apply Rlt_le, Rinv_0_lt_compat; lra | exact Hl].
Qed.

(** The power of the Euclidean distance is accepted exactly for exponents in (0, 2]; it is |x-y|^beta (0 at distance 0), symmetric and of negative type in every dimension. *)
Lemma norm_vdist x y : norm x y = vdist x y.
Proof. unfold norm, vdist. f_equal. rewrite rsuml_total. apply f_equal, map_ext. intros; ring. Qed.
Theorem C38_euclidean beta :
  (beta <= 0 \/ 2 < beta -> def_euclidean beta = Err RuntimeError) /\
  (0 < beta <= 2 -> exists d, def_euclidean beta = Ok d /\ (forall x y, x <> y -> length x = length y -> d x y = Rpower (vdist x y) beta) /\ (forall x, d x x = 0) /\ Symmetric d /\ forall p, NegativeType p d).
Proof.
  unfold def_euclidean. split.
  - intros H. destruct (Rle_dec beta 0); [reflexivity|]. destruct (Rlt_dec 2 beta); [reflexivity | lra].
  - intros H. destruct (Rle_dec beta 0); [lra|]. destruct (Rlt_dec 2 beta); [lra|].
    set (d := fun x y => pypow (norm x y) beta). assert (Hd : exists d', (if Req_EM_T beta 1 then Ok norm else Ok d) = Ok d' /\ forall x y, d' x y = d x y).
    { destruct (Req_EM_T beta 1) as [->|]; [|exists d; split; reflexivity]. exists norm. split; [reflexivity|]. intros x y. unfold d, pypow. destruct (Req_EM_T (norm x y) 0) as [E|E]; [exact E|]. rewrite Rpower_1; [reflexivity|]. pose proof (sqrt_pos (rsuml (map (fun ab => (fst ab - snd ab) * (fst ab - snd ab)) (combine x y)))) as Hp. fold (norm x y) in Hp. lra. }
    destruct Hd as (d' & E & Hd). exists d'. split; [exact E|].
    assert (Hz : forall x, sq x x = 0) by (intros x; apply sq_zero; reflexivity). assert (Hn : forall x y, norm x y = sqrt (sq x y)) by (intros x y; rewrite norm_vdist, vdist_sq; reflexivity). split; [|split; [|split]].
    + intros x y Hne Hl. rewrite Hd. unfold d, pypow. rewrite norm_vdist, vdist_sq. destruct (Req_EM_T (sqrt (sq x y)) 0) as [E0|E0]; [|reflexivity]. exfalso. apply Hne. apply (sq_zero x y Hl). apply sqrt_eq_0; [apply sq_nn | exact E0].
    + intros x. rewrite Hd. unfold d, pypow. rewrite Hn, Hz, sqrt_0. destruct (Req_EM_T 0 0); [reflexivity | lra].
    + intros x y. rewrite !Hd. unfold d. rewrite !Hn, sq_sym. reflexivity.
    + intros p l Hl Hs. rewrite form_qf. destruct (Req_EM_T beta 2) as [->|H2].
      * rewrite (qf_ext (dim p) d' sq l Hl); [apply (sq_NegType p l Hl Hs)|]. intros x y _ _. rewrite Hd. unfold d, pypow. rewrite Hn. pose proof (sq_nn x y) as Hnn. destruct (Req_EM_T (sqrt (sq x y)) 0) as [E0|E0].
        { apply sqrt_eq_0 in E0; [lra | exact Hnn]. }
        { pose proof (sqrt_pos (sq x y)). replace 2 with (INR 2) by (cbn; lra). rewrite Rpower_pow by lra. rewrite <- Rsqr_pow2. apply Rsqr_sqrt. exact Hnn. }
      * rewrite (qf_ext (dim p) d' (fun x y => rpow (sq x y) (beta / 2)) l Hl); [apply (power_NegType (beta / 2) ltac:(lra) p l Hl Hs)|]. intros x y _ _. rewrite Hd. unfold d, pypow, rpow. rewrite Hn. pose proof (sq_nn x y) as Hnn.
        destruct (Req_EM_T (sqrt (sq x y)) 0) as [E0|E0]; destruct (Req_EM_T (sq x y) 0) as [E1|E1]; try reflexivity.
        { apply sqrt_eq_0 in E0; [contradiction | exact Hnn]. }
        { rewrite E1, sqrt_0 in E0. lra. }
        { rewrite <- Rpower_sqrt by lra. rewrite Rpower_mult. f_equal. field. }
Qed.

(** The Gaussian MMD (biased) and the energy distance (biased, every accepted exponent) are never negative; the energy distance is
    2 E|x-y|^beta - E|x-x'|^beta - E|y-y'|^beta. *)
Theorem C38_gaussian_nonneg sigma p s1 s2 : sigma <> 0 -> Rows p s1 -> Rows p s2 -> s1 <> [] -> s2 <> [] ->
  exists kern v, mmd_init (Gaussian sigma) = Ok kern /\ mmd_distance kern true s1 s2 = Ok v /\ 0 <= v.
Proof.
  intros Hs R1 R2 N1 N2. destruct (C38_gaussian sigma p Hs) as (k & Ek & _ & Hsym & Hpd). destruct (C38_nonneg (Vectorised k) k p s1 s2 (or_introl eq_refl) Hsym (or_introl Hpd) R1 R2 N1 N2) as (v & Ev & Hv).
  exists (Vectorised k), v. repeat split; assumption.
Qed.
Theorem C38_energy beta p s1 s2 : 0 < beta <= 2 -> Rows p s1 -> Rows p s2 -> s1 <> [] -> s2 <> [] ->
  exists kern d, energy_init (Euclidean beta) = Ok kern /\ def_euclidean beta = Ok d /\ mmd_distance kern energy_default_biased s1 s2 = Ok (Energy d s1 s2) /\ 0 <= Energy d s1 s2.
Proof.
  intros Hb R1 R2 N1 N2. destruct (proj2 (C38_euclidean beta) Hb) as (d & Ed & _ & _ & Hsym & Hnt). exists (Pairwise (fun x y => - d x y)), d.
  assert (Hs : Symmetric (fun x y => - d x y)) by (intros x y; rewrite Hsym; reflexivity). assert (Hu : Uses (Pairwise (fun x y => - d x y)) (fun x y => - d x y)) by (right; split; [reflexivity | exact Hs]).
  assert (Hn : NegativeType p (fun x y => - - d x y)). { intros l Hl Hz. rewrite form_qf, (qf_ext (fun _ => True) _ d); [rewrite <- form_qf; apply (Hnt p l Hl Hz) | apply Forall_forall; intros; exact I | intros; ring]. }
  assert (EM : MMD2 (fun x y => - d x y) s1 s2 = Energy d s1 s2). { unfold MMD2, Energy. rewrite !mean_pairs_sum, !psums_opp. unfold Rdiv. ring. }
  split; [unfold energy_init; rewrite Ed; reflexivity|]. split; [exact Ed|]. pose proof (proj1 (C38_value _ _ s1 s2 Hu) N1 N2) as Ev. rewrite EM in Ev. split; [exact Ev|].
  destruct (C38_nonneg _ _ p s1 s2 Hu Hs (or_intror Hn) R1 R2 N1 N2) as (v & Ev' & Hv). rewrite Ev in Ev'. injection Ev' as <-. exact Hv.
Qed.

(** Constructor: any other name is not implemented, anything neither a name nor callable is a RuntimeError; a callable base distance is negated. *)
Theorem C38_options :
  mmd_init OtherName = Err NotImplementedError /\ mmd_init NotCallable = Err RuntimeError /\ (forall k, mmd_init (Callable k) = Ok (Pairwise k)) /\
  energy_init OtherBase = Err NotImplementedError /\ energy_init BadBase = Err RuntimeError /\
  (forall beta, beta <= 0 \/ 2 < beta -> energy_init (Euclidean beta) = Err RuntimeError) /\
  (forall d s1 s2, Symmetric d -> s1 <> [] -> s2 <> [] -> exists kern, energy_init (CallableBase d) = Ok kern /\ mmd_distance kern true s1 s2 = Ok (Energy d s1 s2)).
Proof.
  repeat (split; [reflexivity|]). split.
  - intros beta H. unfold energy_init. rewrite (proj1 (C38_euclidean beta) H). reflexivity.
  - intros d s1 s2 Hd N1 N2. exists (Pairwise (fun x y => - d x y)). split; [reflexivity|]. rewrite (proj1 (C38_value (Pairwise (fun x y => - d x y)) (fun x y => - d x y) s1 s2 (or_intror (conj eq_refl (fun x y => f_equal Ropp (Hd x y))))) N1 N2).
    f_equal. unfold MMD2, Energy. rewrite !mean_pairs_sum, !psums_opp. unfold Rdiv. ring.
Qed.

(** False for the unbiased estimator, which is the default of MMD (the documentation says the biased one is): two identical samples give a negative value,
    and a single observation or a single simulation is refused. *)
Theorem C38_unbiased_refuted :
  mmd_default_biased = false /\
  (exists v, mmd_distance (Vectorised (gaussian 1)) mmd_default_biased [[0]; [1]] [[0]; [1]] = Ok v /\ v < 0) /\
  forall x s, mmd_distance (Vectorised (gaussian 1)) mmd_default_biased [x] s = Err ZeroDivisionError.
Proof.
  split; [reflexivity|]. split.
  - eexists. split; [apply (C38_value (Vectorised (gaussian 1)) (gaussian 1)); [left; reflexivity | cbn; lia | cbn; lia]|].
    unfold MMD2_distinct, mean_distinct, mean_pairs, average, distinct_pairs. cbn [length seq flat_map nth_error Nat.eqb app map fst snd total fold_right].
    unfold gaussian, rsuml. cbn [combine map fst snd fold_right INR]. 
    replace (- ((0 - 0) * (0 - 0) + 0) / (2 * 1 ^ 2)) with 0 by field. replace (- ((1 - 1) * (1 - 1) + 0) / (2 * 1 ^ 2)) with 0 by field. replace (- ((0 - 1) * (0 - 1) + 0) / (2 * 1 ^ 2)) with (-/2) by field. replace (- ((1 - 0) * (1 - 0) + 0) / (2 * 1 ^ 2)) with (-/2) by field.
    rewrite exp_0. assert (exp (-/2) < exp 0) by (apply exp_increasing; lra). rewrite exp_0 in H. unfold total. cbn [fold_right]. lra.
  - intros x s. apply (C38_refused (Vectorised (gaussian 1)) (gaussian 1)); [left; reflexivity | left; cbn; lia].
Qed.
(** The object says its estimate is always positive exactly when it uses the biased estimator; with the Gaussian kernel that is so. *)
Theorem C38_declared b : mmd_always_positive b = true <-> (forall p s1 s2 v, Rows p s1 -> Rows p s2 -> mmd_distance (Vectorised (gaussian 1)) b s1 s2 = Ok v -> 0 <= v).
Proof.
  destruct b; cbn [mmd_always_positive].
  - split; [|reflexivity]. intros _ p s1 s2 v R1 R2 H. assert (Hu : Uses (Vectorised (gaussian 1)) (gaussian 1)) by (left; reflexivity).
    assert (N1 : s1 <> []) by (intros ->; pose proof (proj2 (proj1 (C38_refused _ _ [] s2 Hu)) (or_introl eq_refl)); congruence).
    assert (N2 : s2 <> []) by (intros ->; pose proof (proj2 (proj1 (C38_refused _ _ s1 [] Hu)) (or_intror eq_refl)); congruence).
    destruct (C38_gaussian_nonneg 1 p s1 s2 ltac:(lra) R1 R2 N1 N2) as (kern & v' & Ek & Ev & Hv). cbn in Ek. injection Ek as <-. rewrite Ev in H. injection H as <-. exact Hv.
  - split; [discriminate|]. intros H. exfalso. destruct C38_unbiased_refuted as (_ & (v & Ev & Hv) & _). assert (HR : Rows 1 [[0]; [1]]) by (repeat constructor). specialize (H 1%nat _ _ v HR HR Ev). lra.
Qed.

Print Assumptions C38_gram.
Print Assumptions C38_value.
Print Assumptions C38_refused.
Print Assumptions C38_symmetric.
Print Assumptions C38_order.
Print Assumptions C38_self_zero.
Print Assumptions C38_nonneg.
Print Assumptions C38_gaussian.
Print Assumptions C38_euclidean.
Print Assumptions C38_gaussian_nonneg.
Print Assumptions C38_energy.
Print Assumptions C38_options.
Print Assumptions C38_unbiased_refuted.
Print Assumptions C38_declared.

(** a callable kernel on two data sets of different size *)
Definition dotk (x y : vec) : R := rsuml (map (fun ab => fst ab * snd ab) (combine x y)).
Example C38_case : mmd_distance (Pairwise dotk) true [[0]; [4]] [[3]] = Ok 1 /\ mmd_distance (Pairwise dotk) false [[0]; [4]] [[3]; [1]] = Ok (-5).
Proof. split; cbv -[IZR Rplus Rmult Rminus Ropp Rinv]; f_equal; field. Qed.
Example C38_case_energy : exists kern, energy_init (CallableBase (fun x y => (nth 0 x 0 - nth 0 y 0) ^ 2)) = Ok kern /\ mmd_distance kern true [[0]; [4]] [[3]] = Ok 2.
Proof. eexists. split; [reflexivity|]. cbv -[IZR Rplus Rmult Rminus Ropp Rinv pow]. f_equal. field. Qed.
Example C38_hyps : Rows 1 [[0]; [4]] /\ Symmetric dotk /\ 0 < 1 / 2 <= 2.
Proof.
  split; [repeat constructor|]. split; [|lra]. intros x y. unfold dotk. f_equal. revert y. induction x as [|a x IH]; intros [|b y]; try reflexivity. cbn [combine map fst snd]. rewrite IH, Rmult_comm. reflexivity.
Qed.
