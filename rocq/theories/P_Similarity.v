(** C48: similarity sets for distance learning, and the items of the datasets built on them. *)
From Coq Require Import Reals Lia Lra.
From Verif Require Import M_Base M_Num M_XReal M_MMD M_KNN M_Similarity S_Stats S_KNN S_MMD S_Similarity L_PMC L_Stats L_Distance L_MMD L_KNN L_Similarity.
Open Scope R_scope.

(** squared distances of all pairs at different positions *)
Definition pair_dists (target : list (list R)) : list R := map (fun xy => sqd (fst xy) (snd xy)) (distinct_pairs target).
Definition simmat (target : list (list R)) (q : R) : list (list bool) := map (map (fun d => xlt (XR d) (XR q))) (pairwise target).
Lemma simmat_row target q i x : nth_error target i = Some x ->
  nth_error (simmat target q) i = Some (map (fun y => if Rlt_dec (sqd x y) q then true else false) target).
Proof.
  intros H. unfold simmat, pairwise. rewrite map_map. rewrite (map_nth_error _ i target H). f_equal.
  rewrite map_map. apply map_ext. intros y. rewrite dist2_sqd. reflexivity.
Qed.
Lemma simmat_entry target q i j x y b : nth_error target i = Some x -> nth_error target j = Some y ->
  (Entry (simmat target q) i j b <-> (b = true <-> sqd x y < q)).
Proof.
  intros Hi Hj. unfold Entry. rewrite (simmat_row target q i x Hi).
  assert (E : nth_error (map (fun y => if Rlt_dec (sqd x y) q then true else false) target) j = Some (if Rlt_dec (sqd x y) q then true else false))
    by (apply (map_nth_error (fun y => if Rlt_dec (sqd x y) q then true else false)); assumption).
  split.
  - intros (r & Hr & Hb). injection Hr as <-. rewrite E in Hb. injection Hb as <-. destruct (Rlt_dec (sqd x y) q); split; intros; try reflexivity; try assumption; try discriminate; contradiction.
  - intros H. eexists. split; [reflexivity|]. rewrite E. f_equal. destruct (Rlt_dec (sqd x y) q) as [L|L]; destruct b; try reflexivity.
    + symmetry. apply H. assumption.
    + exfalso. apply L. apply H. reflexivity.
Qed.
Lemma simmat_square target q : Square (length target) (simmat target q).
Proof.
  unfold simmat, pairwise. split; [rewrite !map_length; reflexivity|]. rewrite map_map. apply Forall_map. apply Forall_forall.
  intros x _. rewrite !map_length. reflexivity.
Qed.
Lemma nth_error_lt {A} (l : list A) i x : nth_error l i = Some x -> (i < length l)%nat.
Proof. intros H. apply nth_error_Some. congruence. Qed.
Lemma nth_error_ex {A} (l : list A) i : (i < length l)%nat -> exists x, nth_error l i = Some x.
Proof. intros H. destruct (nth_error l i) as [x|] eqn:E; [eauto|]. apply nth_error_None in E. lia. Qed.
Lemma entry_ex n S i j : Square n S -> (i < n)%nat -> (j < n)%nat -> exists b, Entry S i j b.
Proof.
  intros [HS HF] Hi Hj. destruct (nth_error_ex S i ltac:(lia)) as [r Hr]. rewrite Forall_forall in HF.
  pose proof (HF r (nth_error_In _ _ Hr)) as HR. cbn in HR. destruct (nth_error_ex r j ltac:(lia)) as [b Hb]. exists b, r. auto.
Qed.

(** The code's threshold q is a quantile of the squared distances of all pairs of different samples. The result is the
    n-by-n matrix with True exactly for the pairs of squared distance below q; a RuntimeError means that q is positive
    and no two different samples are similar. *)
Theorem C48_matrix : forall target p, (2 <= length target)%nat -> 0 <= p <= 1 ->
  exists q, Quantile p (pair_dists target) q /\
  match similarity target p with
  | Ok M => Square (length target) M /\
            (forall i j x y b, nth_error target i = Some x -> nth_error target j = Some y -> (Entry M i j b <-> (b = true <-> sqd x y < q))) /\
            (0 < q -> exists i j, i <> j /\ Entry M i j true)
  | Err e => e = RuntimeError /\ 0 < q /\
             forall i j x y, i <> j -> nth_error target i = Some x -> nth_error target j = Some y -> ~ sqd x y < q
  end.
Proof.
  intros target p HN HP.
  assert (EL : pair_dists target = off_diag (pairwise target)).
  { rewrite off_diag_spec. apply map_ext. intros [a b]. symmetry. apply dist2_sqd. }
  assert (HNE : off_diag (pairwise target) <> []).
  { rewrite <- EL. intros E. apply (f_equal (@length R)) in E. unfold pair_dists in E. rewrite map_length, distinct_len in E.
    cbn [length] in E. destruct (length target) as [|[|k]]; [lia|lia|]. cbn in E. lia. }
  destruct (quantile_spec _ p HNE HP) as (q & EQ & HQ). exists q. rewrite EL. split; [exact HQ|].
  unfold similarity. rewrite EQ. cbn [rthen]. fold (simmat target q).
  pose proof (simmat_square target q) as SQ. destruct SQ as [SL SF].
  destruct (Nat.eqb_spec (fold_right plus 0%nat (map trues (simmat target q))) (length target)) as [E|E];
  destruct (Nat.eqb_spec (length target) 0); try lia; cbn [negb andb].
  - assert (HQP : 0 < q).
    { destruct (Rlt_dec 0 q) as [L|L]; [assumption|]. exfalso.
      rewrite sum_zero in E; [lia|]. apply Forall_map. apply Forall_forall. intros r Hr. apply trues_zero. intros j Hj.
      apply In_nth_error in Hr. destruct Hr as [i Hr].
      pose proof (nth_error_lt _ _ _ Hr) as Li. rewrite SL in Li. destruct (nth_error_ex target i Li) as [x Hx].
      rewrite (simmat_row target q i x Hx) in Hr. injection Hr as <-.
      pose proof (nth_error_lt _ _ _ Hj) as Lj. rewrite map_length in Lj. destruct (nth_error_ex target j Lj) as [y Hy].
      rewrite (map_nth_error _ j target Hy) in Hj. destruct (Rlt_dec (sqd x y) q); [|discriminate]. pose proof (sqd_nn x y). lra. }
    split; [reflexivity|]. split; [assumption|].
    intros i j x y Hij Hx Hy Hlt.
    assert (HF : Forall (fun k => k = 1%nat) (map trues (simmat target q))).
    { apply sum_ones; [|rewrite map_length; congruence]. apply Forall_map. apply Forall_forall. intros r Hr.
      apply In_nth_error in Hr. destruct Hr as [k Hr]. pose proof (nth_error_lt _ _ _ Hr) as Lk. rewrite SL in Lk. destruct (nth_error_ex target k Lk) as [z Hz].
      rewrite (simmat_row target q k z Hz) in Hr. injection Hr as <-. apply (trues_ge1 _ k). rewrite (map_nth_error _ k target Hz).
      rewrite sqd_self. destruct (Rlt_dec 0 q); [reflexivity|contradiction]. }
    rewrite Forall_forall in HF. apply Hij.
    pose proof (simmat_row target q i x Hx) as HR.
    apply (trues_one (map (fun y => if Rlt_dec (sqd x y) q then true else false) target)).
    + apply HF. apply in_map. apply (nth_error_In _ _ HR).
    + rewrite (map_nth_error _ i target Hx). rewrite sqd_self. destruct (Rlt_dec 0 q); [reflexivity|contradiction].
    + rewrite (map_nth_error _ j target Hy). destruct (Rlt_dec (sqd x y) q); [reflexivity|contradiction].
  - split; [split; assumption|]. split; [intros; apply simmat_entry; assumption|].
    intros HQP.
    destruct (Exists_dec (fun k => k <> 1%nat) (map trues (simmat target q))) as [HE|HE]; [intros k; destruct (Nat.eq_dec k 1); [right|left]; lia| |].
    + apply Exists_exists in HE. destruct HE as (k & Hk & Hk1). apply in_map_iff in Hk. destruct Hk as (r & Er & Hr).
      apply In_nth_error in Hr. destruct Hr as [i Hr]. pose proof (nth_error_lt _ _ _ Hr) as Li. rewrite SL in Li. destruct (nth_error_ex target i Li) as [x Hx].
      assert (HD : nth_error r i = Some true).
      { rewrite (simmat_row target q i x Hx) in Hr. injection Hr as <-. rewrite (map_nth_error _ i target Hx). rewrite sqd_self. destruct (Rlt_dec 0 q); [reflexivity|contradiction]. }
      assert (G : forall (r : list bool) i, nth_error r i = Some true -> trues r <> 1%nat -> exists j, i <> j /\ nth_error r j = Some true).
      { clear. induction r as [|b r IH]; intros i Hi HT; [destruct i; discriminate|]. rewrite trues_cons in HT. destruct i as [|i]; cbn in Hi.
        - injection Hi as ->. assert (HZ : trues r <> 0%nat) by lia. clear -HZ.
          assert (H : exists j, nth_error r j = Some true).
          { induction r as [|b r IH]; [exfalso; apply HZ; reflexivity|]. destruct b; [exists 0%nat; reflexivity|]. rewrite trues_cons in HZ. destruct (IH HZ) as [j Hj]. exists (S j). exact Hj. }
          destruct H as [j Hj]. exists (S j). split; [lia|exact Hj].
        - destruct b; [exists 0%nat; split; [lia|reflexivity]|]. destruct (IH i Hi HT) as (j & Hj & Hj'). exists (S j). split; [lia|exact Hj']. }
      destruct (G r i HD ltac:(congruence)) as (j & Hij & Hj). exists i, j. split; [assumption|]. exists r. auto.
    + exfalso. apply E. rewrite <- SL.
      assert (HF : Forall (fun k => k = 1%nat) (map trues (simmat target q))).
      { apply Forall_forall. intros k Hk. destruct (Nat.eq_dec k 1); [assumption|]. exfalso. apply HE. apply Exists_exists. eauto. }
      clear -HF. induction (simmat target q) as [|r S IH]; [reflexivity|]. cbn [map fold_right length] in *. inversion HF; subst. rewrite IH by assumption. lia.
Qed.
(** At most about a fraction p of the pairs of different samples is similar. *)
Corollary C48_fraction : forall target p S, (2 <= length target)%nat -> 0 <= p <= 1 -> similarity target p = Ok S ->
  exists q, INR (below q (pair_dists target)) < INR (length target * (length target - 1) - 1) * p + 1 /\
  forall i j x y, nth_error target i = Some x -> nth_error target j = Some y -> (Entry S i j true <-> sqd x y < q).
Proof.
  intros target p S HN HP E. destruct (C48_matrix target p HN HP) as (q & [HQ _] & H). rewrite E in H. destruct H as (_ & H & _).
  exists q. split.
  - unfold pair_dists in *. rewrite map_length, distinct_len in HQ. exact HQ.
  - intros i j x y Hi Hj. rewrite (H i j x y true Hi Hj). split; [intros K; apply K; reflexivity|intros K; split; auto].
Qed.
(** The matrix is symmetric. *)
Theorem C48_symmetric : forall target p S i j b, (2 <= length target)%nat -> 0 <= p <= 1 -> similarity target p = Ok S ->
  Entry S i j b -> Entry S j i b.
Proof.
  intros target p S i j b HN HP E HE. destruct (C48_matrix target p HN HP) as (q & _ & H). rewrite E in H. destruct H as ([SL SF] & H & _).
  assert (L : (i < length target)%nat /\ (j < length target)%nat).
  { destruct HE as (r & Hr & Hb). rewrite Forall_forall in SF. pose proof (SF r (nth_error_In _ _ Hr)). pose proof (nth_error_lt _ _ _ Hr). pose proof (nth_error_lt _ _ _ Hb). cbn in *. lia. }
  destruct (nth_error_ex target i (proj1 L)) as [x Hx]. destruct (nth_error_ex target j (proj2 L)) as [y Hy].
  apply (H j i y x b Hy Hx). rewrite sqd_sym. apply (H i j x y b Hx Hy). assumption.
Qed.
(** If no two samples are equal, the result is reflexive with at least one pair of different similar samples, or a
    RuntimeError. *)
Theorem C48_reflexive : forall target p d, (2 <= length target)%nat -> 0 <= p <= 1 ->
  Forall (fun x => length x = d) target -> NoDup target ->
  match similarity target p with
  | Ok M => (forall i, (i < length target)%nat -> Entry M i i true) /\ exists i j, i <> j /\ Entry M i j true
  | Err e => e = RuntimeError
  end.
Proof.
  intros target p d HN HP HD HU. destruct (C48_matrix target p HN HP) as (q & [_ HQ] & H).
  assert (HQP : 0 < q).
  { destruct (Rlt_dec 0 q) as [L|L]; [assumption|]. exfalso.
    assert (HZ : upto q (pair_dists target) = 0%nat).
    { unfold upto, pair_dists. destruct (filter _ _) as [|v l] eqn:EF; [reflexivity|]. exfalso.
      assert (HI : In v (v :: l)) by (left; reflexivity). rewrite <- EF in HI. apply filter_In in HI. destruct HI as [HI HL].
      destruct (Rle_dec v q) as [Hv|]; [|discriminate]. apply in_map_iff in HI. destruct HI as ([x y] & <- & HI). cbn [fst snd] in Hv.
      unfold distinct_pairs in HI. apply in_flat_map in HI. destruct HI as (i & _ & HI). apply in_flat_map in HI. destruct HI as (j & _ & HI).
      destruct (nth_error target i) as [x'|] eqn:Ei; [|destruct HI]. destruct (nth_error target j) as [y'|] eqn:Ej; [|destruct HI].
      destruct (Nat.eqb_spec i j) as [Eij|Eij]; [destruct HI|]. destruct HI as [HI|[]]. injection HI as -> ->.
      rewrite Forall_forall in HD. pose proof (HD x (nth_error_In _ _ Ei)). pose proof (HD y (nth_error_In _ _ Ej)). cbn in *.
      pose proof (sqd_nn x y). assert (Exy : x = y) by (apply sqd_zero; [congruence|lra]).
      apply Eij. subst y. rewrite NoDup_nth_error in HU. apply HU; [apply (nth_error_lt _ _ _ Ei)|congruence]. }
    rewrite HZ in HQ. change (INR 0) with 0 in HQ.
    assert (0 <= INR (length (pair_dists target) - 1) * p) by (apply Rmult_le_pos; [apply pos_INR|lra]). lra. }
  destruct (similarity target p) as [S|e].
  - destruct H as (_ & HE & HP'). split; [|apply HP'; assumption].
    intros i Hi. destruct (nth_error_ex target i Hi) as [x Hx]. apply (HE i i x x true Hx Hx). rewrite sqd_self. split; auto.
  - apply H.
Qed.
(** With repeated samples the threshold can be zero; then the result is a matrix without any True and without an error, so
    reflexivity and non-triviality fail in general. *)
Theorem C48_duplicates_refuted :
  ~ (forall target p S i, (2 <= length target)%nat -> 0 <= p <= 1 -> similarity target p = Ok S -> (i < length target)%nat -> Entry S i i true).
Proof.
  intros H. set (t := [[0]; [0]; [0]] : list (list R)).
  destruct (C48_matrix t 0 ltac:(cbn; lia) ltac:(lra)) as (q & [HQ _] & HM).
  assert (HZ : q <= 0).
  { destruct (Rle_dec q 0) as [L|L]; [assumption|]. exfalso.
    assert (E : pair_dists t = [0;0;0;0;0;0]). { unfold pair_dists, t. cbn. unfold sqd. cbn. repeat (f_equal; try ring). }
    rewrite E in HQ. unfold below in HQ. cbn [filter] in HQ. destruct (Rlt_dec 0 q); [|lra]. cbn [length] in HQ.
    rewrite Rmult_0_r in HQ. cbn in HQ. lra. }
  destruct (similarity t 0) as [S|e] eqn:E.
  - specialize (H t 0 S 0%nat ltac:(cbn; lia) ltac:(lra) E ltac:(cbn; lia)).
    destruct HM as (_ & HM & _). apply (HM 0%nat 0%nat [0] [0] true eq_refl eq_refl) in H. destruct H as [H _]. specialize (H eq_refl). rewrite sqd_self in H. lra.
  - destruct HM as (_ & HM & _). lra.
Qed.
(** An invalid quantile is refused. *)
Theorem C48_refused : forall target p, p < 0 \/ 1 < p -> similarity target p = Err ValueError.
Proof.
  intros target p H. unfold similarity, np_quantile. destruct (Rlt_dec p 0); [reflexivity|]. destruct (Rlt_dec 1 p); [reflexivity|]. lra.
Qed.

(** A Siamese item pairs the sample with a different one, and its target is the entry of the similarity matrix. *)
Theorem C48_siamese : forall draw fuel S n w u index i j t, Square n S ->
  siamese draw fuel S n w u index = Ok (i, j, t) -> i = index /\ j <> index /\ (j < n)%nat /\ Entry S index j t.
Proof.
  intros draw fuel S n w u index i j t [SL SF] H.
  set (free := rthen (draw_other draw fuel (seq 0 n) index 0) (fun jk =>
              rthen (row_of S index) (fun r => rthen (item_of r (fst jk)) (fun t => Ok (index, fst jk, t))))).
  assert (HF : free = Ok (i, j, t) -> i = index /\ j <> index /\ (j < n)%nat /\ Entry S index j t).
  { unfold free. clear H. intros H. destruct (draw_other draw fuel (seq 0 n) index 0) as [[j' k']|] eqn:ED; [|discriminate]. cbn [rthen fst] in H.
    unfold row_of in H. destruct (nth_error S index) as [r|] eqn:ER; [|discriminate]. cbn [rthen] in H.
    unfold item_of in H. destruct (nth_error r j') as [b|] eqn:EB; [|discriminate]. cbn [rthen] in H. injection H as <- <- <-.
    apply draw_other_ok in ED. destruct ED as [N HI]. apply in_seq in HI. split; [reflexivity|]. split; [assumption|]. split; [lia|]. exists r. auto. }
  destruct w as [w|]; [|apply HF; exact H].
  cbn [siamese] in H. unfold siamese in H. fold free in H. unfold row_of in H at 1. destruct (nth_error S index) as [r|] eqn:ER; [|discriminate]. cbn [rthen] in H.
  destruct (trues r <? 2)%nat; [apply HF; exact H|].
  set (tg := if Rlt_dec u w then true else false) in *. clearbody tg.
  destruct (draw_other draw fuel (where_ tg r) index 0) as [[j' k']|] eqn:ED; [|discriminate]. cbn [rthen fst] in H. injection H as <- <- <-.
  apply draw_other_ok in ED. destruct ED as [N HI]. apply where_in in HI.
  rewrite Forall_forall in SF. pose proof (SF r (nth_error_In _ _ ER)). pose proof (nth_error_lt _ _ _ HI). cbn in *.
  split; [reflexivity|]. split; [assumption|]. split; [lia|]. exists r. auto.
Qed.
(** With a positive weight and at least two marked samples in the row, the item is a similar pair iff the uniform draw is
    below the weight. *)
Theorem C48_siamese_weight : forall draw fuel S n w u index k i j t, Similars S index k -> (2 <= k)%nat ->
  siamese draw fuel S n (Some w) u index = Ok (i, j, t) -> (t = true <-> u < w).
Proof.
  intros draw fuel S n w u index k i j t (r & Hr & Hk) HK H. unfold siamese in H. unfold row_of in H at 1. rewrite Hr in H. cbn [rthen] in H.
  fold (trues r) in Hk. destruct (Nat.ltb_spec (trues r) 2); [lia|].
  destruct (Rlt_dec u w) as [L|L]; destruct (draw_other _ _ _ _ _) as [[j' k']|]; try discriminate; cbn [rthen fst] in H;
    assert (Et : t = true \/ t = false) by (destruct t; auto); injection H as _ _ <-; split; intros; try assumption; try reflexivity; try discriminate; contradiction.
Qed.
(** A triplet consists of an anchor, a different sample similar to it and a different sample not similar to it; the anchor
    is the requested one unless that one has no other similar sample. *)
Theorem C48_triplet : forall draw fuel S n index a p m, Square n S -> triplet draw fuel S n index = Ok (a, p, m) ->
  p <> a /\ m <> a /\ p <> m /\ Entry S a p true /\ Entry S a m false /\
  exists k0, Similars S index k0 /\ ((2 <= k0)%nat -> a = index) /\ ((k0 < 2)%nat -> a <> index /\ exists k, Similars S a k /\ (2 <= k)%nat).
Proof.
  intros draw fuel S n index a p m HS H. unfold triplet in H. unfold row_of in H. destruct (nth_error S index) as [r0|] eqn:E0; [|discriminate]. cbn [rthen] in H.
  set (anchor := if (trues r0 <? 2)%nat then new_anchor draw fuel S n index 0 else Ok (index, 0%nat)) in H.
  destruct anchor as [[a' k']|] eqn:EA; [|discriminate]. cbn [rthen fst snd] in H.
  destruct (nth_error S a') as [r|] eqn:ER; [|discriminate]. cbn [rthen] in H.
  destruct (draw_other draw fuel (where_ true r) a' k') as [[p' kp]|] eqn:EP; [|discriminate]. cbn [rthen fst snd] in H.
  destruct (draw_other draw fuel (where_ false r) a' kp) as [[m' km]|] eqn:EM; [|discriminate]. cbn [rthen fst snd] in H.
  injection H as -> -> ->.
  apply draw_other_ok in EP. destruct EP as [NP HP]. apply where_in in HP.
  apply draw_other_ok in EM. destruct EM as [NM HM]. apply where_in in HM.
  split; [assumption|]. split; [assumption|]. split; [congruence|]. split; [exists r; auto|]. split; [exists r; auto|].
  exists (trues r0). split; [exists r0; auto|]. unfold anchor in EA. destruct (Nat.ltb_spec (trues r0) 2) as [L|L].
  - apply new_anchor_ok in EA. destruct EA as (NA & r' & Hr' & HT). split; [lia|]. intros _. split; [assumption|]. exists (trues r'). split; [exists r'; auto|assumption].
  - split; [intros; congruence|lia].
Qed.
(** When the loops end: a draw that hits a candidate other than the sample ends the loop, ... *)
Theorem C48_siamese_ends : forall draw S n u index m, Square n S -> (index < n)%nat -> (draw m mod n)%nat <> index ->
  exists j t, forall fuel, (m < fuel)%nat -> siamese draw fuel S n None u index = Ok (index, j, t).
Proof.
  intros draw S n u index m HS Hi HD.
  assert (HN : seq 0 n <> []) by (destruct n; [lia|discriminate]).
  assert (Hmod : (draw m mod n < n)%nat) by (apply Nat.mod_upper_bound; lia).
  destruct (draw_other_ends draw (seq 0 n) index HN m 0) as (j & k' & HJ).
  { rewrite seq_length. cbn [Nat.add]. rewrite seq_nth by assumption. assumption. }
  pose proof (HJ (Datatypes.S m) ltac:(lia)) as J0. apply draw_other_ok in J0. destruct J0 as [_ J0]. apply in_seq in J0.
  destruct (entry_ex n S index j HS Hi ltac:(lia)) as (b & r & Hr & Hb).
  exists j, b. intros fuel Hf. unfold siamese. rewrite (HJ fuel Hf). cbn [rthen fst]. unfold row_of. rewrite Hr. cbn [rthen]. unfold item_of. rewrite Hb. reflexivity.
Qed.
(** ... but a single sample makes the pair loop endless, a row without a dissimilar sample makes the choice of a
    dissimilar one an error, and a matrix without similar pairs (such as the one of the previous refutation) makes the
    search for an anchor endless, for every sequence of draws. *)
Theorem C48_endless : forall draw fuel,
  (forall S u, siamese draw fuel S 1 None u 0 = Err OutOfFuel) /\
  (forall S n index, Square n S -> (index < n)%nat -> (forall i k, Similars S i k -> (k < 2)%nat) -> triplet draw fuel S n index = Err OutOfFuel).
Proof.
  intros draw fuel. split.
  - intros S u. unfold siamese. rewrite draw_other_stuck; [reflexivity|discriminate|]. intros c [<-|[]]. reflexivity.
  - intros S n index [SL SF] Hi HS. unfold triplet, row_of. destruct (nth_error_ex S index ltac:(lia)) as [r Hr]. rewrite Hr. cbn [rthen].
    pose proof (HS index (trues r) ltac:(exists r; auto)) as HT. apply Nat.ltb_lt in HT. rewrite HT.
    rewrite new_anchor_stuck; [reflexivity|lia|assumption|]. intros i r' _ Hr'. apply (HS i). exists r'. auto.
Qed.
Theorem C48_no_dissimilar : forall draw fuel S n w u index k, Similars S index k -> (2 <= k)%nat -> ~ u < w ->
  (forall j, ~ Entry S index j false) -> siamese draw (Datatypes.S fuel) S n (Some w) u index = Err ValueError.
Proof.
  intros draw fuel S n w u index k (r & Hr & Hk) HK HU HE. unfold siamese. unfold row_of at 1. rewrite Hr. cbn [rthen].
  fold (trues r) in Hk. destruct (Nat.ltb_spec (trues r) 2); [lia|]. destruct (Rlt_dec u w); [contradiction|].
  destruct (where_ false r) as [|c l] eqn:EW; [reflexivity|]. exfalso. apply (HE c). exists r. split; [assumption|].
  apply where_in. rewrite EW. left. reflexivity.
Qed.
(** Parameter-simulation pairs keep simulations and parameters together. *)
Theorem C48_pairs : forall A B (sims : list A) (pars : list B),
  match pairs_init sims pars with
  | Ok d => length sims = length pars /\ forall i s p, pairs_item d i = Ok (s, p) <-> nth_error sims i = Some s /\ nth_error pars i = Some p
  | Err e => e = RuntimeError /\ length sims <> length pars
  end.
Proof.
  intros A B sims pars. unfold pairs_init. destruct (Nat.eqb_spec (length sims) (length pars)) as [E|E]; cbn [negb].
  - split; [assumption|]. intros i s p. unfold pairs_item. cbn [fst snd]. destruct (nth_error sims i), (nth_error pars i); split; intros H;
      try discriminate; try (destruct H; discriminate); [injection H as -> ->; auto|destruct H; congruence].
  - auto.
Qed.
Print Assumptions C48_matrix.
Print Assumptions C48_siamese.
Print Assumptions C48_triplet.

(** Four samples on a line, quantile one half of the pairs. *)
Example C48_example : forall (t := [[0]; [1]; [4]; [9]] : list (list R)),
  (2 <= length t)%nat /\ Forall (fun x => length x = 1%nat) t /\ NoDup t /\
  pair_dists t = [1; 16; 81; 1; 9; 64; 16; 9; 25; 81; 64; 25].
Proof.
  intros t. split; [cbn; lia|]. split; [repeat constructor|]. split.
  - assert (G : forall a b : R, a <> b -> [a] <> [b]) by congruence. unfold t.
    constructor; [|constructor; [|constructor; [|constructor; [intros []|constructor]]]]; cbn; intros H;
      repeat (destruct H as [H|H]; [injection H; lra|]); destruct H.
  - unfold pair_dists, t. cbn -[pow]. unfold sqd. cbn. repeat (f_equal; try lra).
Qed.
(** A matrix of three samples, the first two similar. *)
Example C48_items : let S := [[true; true; false]; [true; true; false]; [false; false; true]] in
  Square 3 S /\ Similars S 0 2 /\ triplet (fun k => k) 10 S 3 0 = Ok (0, 1, 2)%nat /\
  triplet (fun k => k) 10 S 3 2 = Ok (0, 1, 2)%nat /\ siamese (fun k => k) 10 S 3 None 0 0 = Ok (0, 1, true)%nat.
Proof.
  intros S. split; [split; [reflexivity|repeat constructor]|]. split; [eexists; split; reflexivity|].
  split; [reflexivity|]. split; reflexivity.
Qed.

Print Assumptions C48_fraction.
Print Assumptions C48_symmetric.
Print Assumptions C48_reflexive.
Print Assumptions C48_duplicates_refuted.
Print Assumptions C48_refused.
Print Assumptions C48_siamese_weight.
Print Assumptions C48_siamese_ends.
Print Assumptions C48_endless.
Print Assumptions C48_no_dissimilar.
Print Assumptions C48_pairs.
