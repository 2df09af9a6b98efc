(** Property C69, continued: construction, samples and density. *)
From Coq Require Import Reals Lra.
From Verif Require Import M_Base M_Num M_XReal M_Transform M_Stats M_Priors L_PMC L_Stats M_MVPrior S_MVPrior L_MVPrior P_MVPrior.
Open Scope R_scope.

(** the documented argument: a list of numbers and a list of rows *)
Definition nums (l : list R) : arg := AList (map (fun x => ANum (XR x)) l).
Definition rows (d : nat) (A : nat -> nat -> R) : arg := AList (map (fun i => nums (map (A i) (seq 0 d))) (seq 0 d)).

Lemma flat_nums l : flat (nums l) = Ok (true, map XR l).
Proof.
  unfold nums. cbn [flat]. induction l as [|x l IH]; [reflexivity|]. cbn [map]. cbn [flat]. rewrite IH. reflexivity.
Qed.
Lemma flat_cons a l : flat (AList (a :: l)) = match flat a with Err e => Err e | Ok (f, vs) => match flat (AList l) with Err e => Err e | Ok (f', vs') => Ok (f && f', vs ++ vs') end end.
Proof. reflexivity. Qed.
Lemma flat_rows d A : flat (rows d A) = Ok (true, concat (map (fun i => map (fun j => XR (A i j)) (seq 0 d)) (seq 0 d))).
Proof.
  unfold rows. generalize (seq 0 d) at 2 4. intros l. induction l as [|i l IH]; [reflexivity|]. cbn [map]. rewrite flat_cons, flat_nums, IH. cbn [andb concat]. rewrite map_map. reflexivity.
Qed.
(** values of several models: those in order, and their number *)
Lemma flat_models l : exists f vs, flat (AList (map (fun m : bool * list xr => AModel (fst m) (snd m)) l)) = Ok (f, vs) /\ length vs = list_sum (map (fun m => length (snd m)) l) /\ (Forall (fun m => fst m = true) l -> f = true).
Proof.
  induction l as [|(f & v) l (f' & vs & E & El & Ef)]; [exists true, []; split; [reflexivity | split; reflexivity]|]. exists (f && f')%bool, (v ++ vs). cbn [map]. rewrite flat_cons, E. cbn [flat fst snd]. split; [reflexivity|].
  split; [rewrite app_length, El; reflexivity|]. intros H. inversion H as [|? ? H1 H2]; subst. cbn in H1. rewrite H1, Ef by exact H2. reflexivity.
Qed.

(** C69.  Construction from numbers: succeeds exactly if the matrix, read row by row, is accepted, with the dimension of the mean; ValueError otherwise.  A fixed mean whose entries are models
    with more than one output, or with none, is refused whatever matrix of the right size comes with it; a mean that is a model is accepted only by the normal distribution. *)
Theorem C69_constructed : forall mean A (df : R), let d := length mean in
  (mvn_init (Some [nums mean; rows d A]) = if mvn_check_input d (values mean A) then Ok (Some d) else Err ValueError)
  /\ (mst_init (Some [nums mean; rows d A; ANum (XR df)]) = if mst_check_input d (values mean A ++ [XR df]) then Ok (Some d) else Err ValueError)
  /\ (forall vs, length vs = d -> mvn_init (Some [AModel true vs; rows d A]) = if mvn_check_input d (vs ++ skipn d (values mean A)) then Ok (Some d) else Err ValueError)
  /\ (forall vs b cov x, mst_init (Some [AModel b vs; cov; x]) = Err TypeError)
  /\ (forall ms, Forall (fun m : bool * list xr => fst m = true) ms -> list_sum (map (fun m => length (snd m)) ms) = d -> length ms <> d ->
        mvn_init (Some [AList (map (fun m => AModel (fst m) (snd m)) ms); rows d A]) = Err ValueError).
Proof.
  intros mean A df d.
  assert (Hsk : skipn d (values mean A) = concat (map (fun i => map (fun j => XR (A i j)) (seq 0 d)) (seq 0 d))).
  { unfold values. fold d. rewrite skipn_app, skipn_all2 by (rewrite map_length; fold d; lia). rewrite map_length. fold d. rewrite Nat.sub_diag. reflexivity. }
  split; [|split; [|split; [|split]]].
  - unfold mvn_init. rewrite flat_cons, flat_nums, flat_cons, flat_rows. cbn [flat andb]. rewrite app_nil_r. unfold model_init, mean_dim, nums. rewrite map_length. fold d. reflexivity.
  - unfold mst_init. cbn [is_list nums rows negb]. fold (nums mean). fold (rows d A). rewrite flat_cons, flat_nums, flat_cons, flat_rows, flat_cons. cbn [flat andb app]. unfold model_init, mean_dim, nums. rewrite map_length. fold d. unfold values. fold d. rewrite <- app_assoc. reflexivity.
  - intros vs Hl. unfold mvn_init. rewrite flat_cons, flat_cons, flat_rows. change (flat (AModel true vs)) with (Ok (true, vs)). cbn [flat andb]. rewrite app_nil_r. unfold model_init, mean_dim. rewrite Hl, Hsk. reflexivity.
  - reflexivity.
  - intros ms Hf Hs Hne. destruct (flat_models ms) as (f & vs & E & El & Ef). unfold mvn_init. rewrite flat_cons, E, flat_cons, flat_rows. cbn [flat andb]. rewrite app_nil_r. rewrite (Ef Hf). cbn [andb]. unfold model_init, mean_dim. rewrite map_length.
    destruct (C69_accepted mean A (XR 1)) as (_ & _ & _ & H). rewrite (proj1 (H _ _)); [reflexivity|]. rewrite app_length, El, Hs, (concat_len _ d) by (intros; now rewrite map_length, seq_length). rewrite seq_length. cbn [Nat.pow]. rewrite Nat.mul_1_r.
    assert (forall a b : nat, a <> b -> (b + b * b <> a + a * a)%nat); [|auto]. intros a b Hab. destruct (Nat.lt_total a b) as [Hl|[Hl|Hl]]; [|contradiction|]; apply Nat.lt_le_incl in Hl as Hm; pose proof (Nat.mul_le_mono _ _ _ _ Hm Hm); lia.
Qed.
Print Assumptions C69_constructed.
Example C69_constructed_case : mvn_init (Some [nums [1; 5]; rows 2 (mat2 2 1 1 2)]) = Ok (Some 2%nat) /\ mvn_init (Some [nums [1; 5]; rows 2 (mat2 1 2 2 1)]) = Err ValueError
  /\ mvn_init (Some [AList [AModel true [XR 1; XR 5]]; rows 2 (mat2 2 1 1 2)]) = Err ValueError /\ mvn_init (Some [ANum (XR 1); ANum (XR 1)]) = Err AttributeError.
Proof.
  destruct C69_accepted_case as (E1 & E2 & _). destruct (C69_constructed [1; 5] (mat2 2 1 1 2) 3) as (C1 & _ & _ & _ & C4). destruct (C69_constructed [1; 5] (mat2 1 2 2 1) 3) as (C2 & _). cbn [length] in *.
  split; [rewrite C1, E1; reflexivity|]. split; [rewrite C2, E2; reflexivity|]. split; [|reflexivity]. apply (C4 [(true, [XR 1; XR 5])]); [constructor; [reflexivity | constructor] | reflexivity | cbn; lia].
Qed.

Lemma square_values mean A : square (length mean) (skipn (length mean) (values mean A)) = map (fun i => map (fun j => XR (A i j)) (seq 0 (length mean))) (seq 0 (length mean)).
Proof.
  set (d := length mean). unfold values. fold d. rewrite skipn_app, skipn_all2 by (rewrite map_length; fold d; lia). rewrite map_length. fold d. rewrite Nat.sub_diag. cbn [app skipn].
  unfold square. apply map_ext_in. intros i Hi. apply in_seq in Hi. rewrite (rows_skip (fun i => map (fun j => XR (A i j)) (seq 0 d)) d) by first [lia | intros; now rewrite map_length, seq_length]. reflexivity.
Qed.
(** C69.  Samples: k of them, each with as many entries as the dimension.  Entry j of sample i of the Student distribution is the mean plus entry j of the i-th centred normal vector with the given matrix,
    divided by the root of the i-th chi-square number over its degrees of freedom - the same for all entries of a sample; with infinitely many degrees of freedom the normal vector itself. *)
Theorem C69_samples : forall (normals : list xr -> list (list xr) -> nat -> list (list xr)) chisq (c : nat -> R) (z : nat -> nat -> R) mean A df k, let d := length mean in
  (forall m cv, length m = d -> length (normals m cv k) = k /\ Forall (fun r => length r = d) (normals m cv k)) ->
  (forall i j, (i < k)%nat -> (j < d)%nat -> nth j (nth i (normals (repeat (XR 0) d) (map (fun i => map (fun j => XR (A i j)) (seq 0 d)) (seq 0 d)) k) []) XNaN = XR (z i j)) ->
  0 < df -> (forall i, (i < k)%nat -> chisq (XR df) i = XR (c i) /\ 0 < c i) ->
  (forall vs, length vs = (d + d ^ 2)%nat -> length (mvn_sample normals d vs k) = k /\ Forall (fun r => length r = d) (mvn_sample normals d vs k))
  /\ (let s := mst_sample normals chisq d (values mean A ++ [XR df]) k in
      length s = k /\ Forall (fun r => length r = d) s /\ forall i j, (i < k)%nat -> (j < d)%nat -> nth j (nth i s []) XNaN = XR (nth j mean 0 + z i j / sqrt (c i / df)))
  /\ (forall i j, (i < k)%nat -> (j < d)%nat -> nth j (nth i (mst_sample normals chisq d (values mean A ++ [XInf]) k) []) XNaN = XR (nth j mean 0 + z i j)).
Proof.
  intros normals chisq c z mean A df k d Hn Hz Hdf Hc. unfold d in Hz at 2 3 4. rewrite <- square_values in Hz. fold d in Hz.
  assert (Hcov : forall v, firstn (d ^ 2) (skipn d (values mean A ++ [v])) = skipn d (values mean A)).
  { intros v. rewrite skipn_app, firstn_app. assert (El : length (skipn d (values mean A)) = (d ^ 2)%nat) by (rewrite skipn_length, values_len; fold d; lia). rewrite El, Nat.sub_diag. cbn [firstn]. rewrite app_nil_r. apply firstn_all2. lia. }
  assert (Hmean : forall v, firstn d (values mean A ++ [v]) = map XR mean).
  { intros v. unfold values. rewrite <- app_assoc, firstn_app, map_length. fold d. rewrite Nat.sub_diag. cbn [firstn]. rewrite app_nil_r. apply firstn_all2. rewrite map_length. fold d. lia. }
  set (N := normals (repeat (XR 0) d) (square d (skipn d (values mean A))) k) in *. destruct (Hn (repeat (XR 0) d) (square d (skipn d (values mean A))) (repeat_length _ _)) as (HN1 & HN2). fold N in HN1, HN2.
  assert (HNi : forall i, (i < k)%nat -> length (nth i N []) = d). { intros i Hi. rewrite Forall_forall in HN2. apply HN2, nth_In. lia. }
  assert (Hent : forall (f : xr * xr -> xr) i j, (i < k)%nat -> (j < d)%nat -> nth j (map f (combine (map XR mean) (nth i N []))) XNaN = f (XR (nth j mean 0), XR (z i j))).
  { intros f i j Hi Hj. rewrite (nth_indep _ XNaN (f (XR 0, XNaN))) by (rewrite map_length, combine_length, map_length, HNi by exact Hi; fold d; lia). rewrite map_nth, combine_nth by (rewrite map_length, HNi by exact Hi; reflexivity). rewrite Hz by assumption. rewrite (map_nth XR). reflexivity. }
  split; [|split].
  - intros vs Hl. unfold mvn_sample. cbv zeta. destruct (Hn (firstn d vs) (square d (firstn (d ^ 2) (skipn d vs)))) as (H1 & H2); [rewrite firstn_length; lia|]. split; [now rewrite map_length, seq_length|]. apply Forall_forall. intros r Hr. apply in_map_iff in Hr. destruct Hr as (i & <- & Hi). apply in_seq in Hi. rewrite Forall_forall in H2. apply H2, nth_In. lia.
  - unfold mst_sample. rewrite Hcov, Hmean, last_last. cbv zeta. change x0 with (XR 0). fold N. split; [now rewrite map_length, seq_length|]. split.
    + apply Forall_forall. intros r Hr. apply in_map_iff in Hr. destruct Hr as (i & <- & Hi). apply in_seq in Hi. rewrite map_length, combine_length, map_length, HNi by lia. fold d. lia.
    + intros i j Hi Hj. destruct (Hc i Hi) as (E & Hp). assert (Hq : 0 < c i / df) by (apply Rdiv_lt_0_compat; assumption).
      rewrite (nth_indep _ [] (map (fun mz : xr * xr => xadd (fst mz) (xdiv (snd mz) (xsqrt (xdiv (chisq (XR df) 0%nat) (XR df))))) (combine (map XR mean) (nth 0 N [])))) by (rewrite map_length, seq_length; exact Hi).
      rewrite (map_nth (fun i => map (fun mz : xr * xr => xadd (fst mz) (xdiv (snd mz) (xsqrt (xdiv (chisq (XR df) i) (XR df))))) (combine (map XR mean) (nth i N [])))), seq_nth by exact Hi. cbn [plus].
      rewrite (Hent (fun mz : xr * xr => xadd (fst mz) (xdiv (snd mz) (xsqrt (xdiv (chisq (XR df) i) (XR df)))))) by assumption. cbn [fst snd]. rewrite E. rewrite xdiv_fin by lra. rewrite xsqrt_pos by exact Hq. rewrite xdiv_fin by (apply Rgt_not_eq, sqrt_lt_R0; exact Hq). reflexivity.
  - intros i j Hi Hj. unfold mst_sample. rewrite Hcov, Hmean, last_last. cbv zeta. change x0 with (XR 0). fold N.
    rewrite (nth_indep _ [] (map (fun mz : xr * xr => xadd (fst mz) (xdiv (snd mz) (xsqrt x1))) (combine (map XR mean) (nth 0 N [])))) by (rewrite map_length, seq_length; exact Hi).
    rewrite (map_nth (fun i => map (fun mz : xr * xr => xadd (fst mz) (xdiv (snd mz) (xsqrt x1))) (combine (map XR mean) (nth i N [])))), seq_nth by exact Hi. cbn [plus].
    rewrite (Hent (fun mz : xr * xr => xadd (fst mz) (xdiv (snd mz) (xsqrt x1)))) by assumption. cbn [fst snd]. unfold x1. rewrite xsqrt_pos by lra. rewrite sqrt_1. rewrite xdiv_fin by lra. cbn [xadd]. f_equal. field.
Qed.
Print Assumptions C69_samples.
(** C69.  The samples of the normal distribution are the first k vectors that numpy draws with the given mean and the given matrix. *)
Theorem C69_normal_samples : forall (normals : list xr -> list (list xr) -> nat -> list (list xr)) mean A k, let d := length mean in
  (forall m cv, length (normals m cv k) = k) ->
  mvn_sample normals d (values mean A) k = normals (map XR mean) (map (fun i => map (fun j => XR (A i j)) (seq 0 d)) (seq 0 d)) k.
Proof.
  intros normals mean A k d Hn. unfold mvn_sample. cbv zeta.
  assert (E1 : firstn d (values mean A) = map XR mean). { unfold values. rewrite firstn_app, map_length. fold d. rewrite Nat.sub_diag. cbn [firstn]. rewrite app_nil_r. apply firstn_all2. rewrite map_length. fold d. lia. }
  rewrite E1, (firstn_all2 (skipn d (values mean A))) by (rewrite skipn_length, values_len; fold d; lia). unfold d. rewrite square_values. fold d. set (M := map (fun i => map (fun j => XR (A i j)) (seq 0 d)) (seq 0 d)).
  apply (nth_ext _ _ [] []); [rewrite map_length, seq_length; symmetry; apply Hn|]. intros i Hi. rewrite map_length, seq_length in Hi.
  rewrite (nth_indep _ [] (nth 0 (normals (map XR mean) M k) [])) by (rewrite map_length, seq_length; exact Hi). rewrite (map_nth (fun i => nth i (normals (map XR mean) M k) [])), seq_nth by exact Hi. reflexivity.
Qed.
Print Assumptions C69_normal_samples.
(** A case: one dimension, two samples; normal numbers 3 and 6, chi-square numbers 4 and 16 with four degrees of freedom: mean 1, samples 1 + 3/1 and 1 + 6/2. *)
Example C69_samples_case : mst_sample (fun _ _ k => map (fun i => [XR (3 * INR (S i))]) (seq 0 k)) (fun _ i => XR (match i with O => 4 | _ => 16 end)) 1 (values [1] (fun _ _ => 1) ++ [XR 4]) 2 = [[XR 4]; [XR 4]].
Proof.
  destruct (C69_samples (fun m _ k => map (fun i => repeat (XR (3 * INR (S i))) (length m)) (seq 0 k)) (fun _ i => XR (match i with O => 4 | _ => 16 end)) (fun i => match i with O => 4 | _ => 16 end) (fun i _ => 3 * INR (S i)) [1] (fun _ _ => 1) 4 2) as (_ & H & _).
  - intros m cv Hm. split; [now rewrite map_length, seq_length|]. apply Forall_forall. intros r Hr. apply in_map_iff in Hr. destruct Hr as (i & <- & _). rewrite repeat_length. exact Hm.
  - intros [|[|i]] [|j] Hi Hj; try (cbn in Hj; lia); reflexivity.
  - lra.
  - intros [|i] Hi; (split; [reflexivity | lra]).
  - cbv zeta in H. destruct H as (_ & _ & H). pose proof (H 0%nat 0%nat ltac:(lia) ltac:(cbn; lia)) as H0. pose proof (H 1%nat 0%nat ltac:(lia) ltac:(cbn; lia)) as H1. clear H.
    cbn -[xdiv xsqrt IZR INR] in H0, H1 |- *. assert (E1 : sqrt (4 / 4) = 1) by (replace (4 / 4) with 1 by lra; apply sqrt_1). assert (E2 : sqrt (16 / 4) = 2) by (replace (16 / 4) with (2 * 2) by lra; apply sqrt_square; lra).
    rewrite E1 in H0. rewrite E2 in H1. rewrite H0, H1. cbn [INR]. repeat f_equal; lra.
Qed.
