(** C53: the Wasserstein distance of weighted samples and the convergence series of a journal. *)
From Coq Require Import Reals Lia Lra.
From Verif Require Import M_Base M_Num M_XReal M_MMD M_Stats M_Wass S_Stats S_Distance S_Wass L_PMC L_Stats L_Distance L_PosDef L_MMD L_Joint L_Wass.
Open Scope R_scope.

(** Exact solvers exist (the least cost is attained as an infimum for every pair of weight vectors). *)
Definition fin (x : xr) : option R := match x with XR r => Some r | _ => None end.
Fixpoint fins (l : list xr) : list R := match l with [] => [] | XR r :: l' => r :: fins l' | _ :: l' => fins l' end.
Lemma fins_map a : fins (map XR a) = a.
Proof. induction a as [|x a IH]; cbn; [reflexivity|]. rewrite IH. reflexivity. Qed.
Definition prob_dec (a : list R) : {Prob a} + {~ Prob a}.
Proof.
  destruct (Forall_dec (fun x => 0 <= x) (fun x => Rle_dec 0 x) a) as [H|H]; [|right; intros [K _]; contradiction].
  destruct (Req_EM_T (total a) 1) as [E|E]; [left; split; assumption|right; intros [_ K]; contradiction].
Defined.
Theorem C53_solver_exists : exists emd2, Solver emd2.
Proof.
  exists (fun la lb K => match prob_dec (fins la) with
                         | left HA => match prob_dec (fins lb) with left HB => XR (proj1_sig (least_exists (fins la) (fins lb) (at_ K) HA HB)) | right _ => XNaN end
                         | right _ => XNaN
                         end).
  intros a b K HA HB. cbv beta. rewrite !fins_map. destruct (prob_dec a) as [HA'|]; [|contradiction]. destruct (prob_dec b) as [HB'|]; [|contradiction].
  destruct (least_exists a b (at_ K) HA' HB') as [v Hv]. cbn [proj1_sig]. exists v. split; [reflexivity|exact Hv].
Qed.

Section C53.
Variable emd2 : list xr -> list xr -> list (list R) -> xr.

(** Weight vectors of the wrong length are refused, ... *)
Theorem C53_refused : forall s1 s2 w1 w2 l,
  (w1 = Some l /\ length l <> length s1) \/ (w2 = Some l /\ length l <> length s2) -> wass_dist emd2 s1 s2 w1 w2 = Err RuntimeError.
Proof.
  intros s1 s2 w1 w2 l [[-> H]|[-> H]]; apply Nat.eqb_neq in H; unfold wass_dist, norm_weights.
  - rewrite H. reflexivity.
  - rewrite H. destruct w1 as [l1|]; [destruct (negb _)|]; reflexivity.
Qed.
(** ... and weights are normalised: multiplying all of them by a non-zero constant changes nothing, and equal weights are
    the same as none. *)
Theorem C53_scale : forall s1 s2 l w2 k, k <> 0 -> total l <> 0 ->
  wass_dist emd2 s1 s2 (Some (map (Rmult k) l)) w2 = wass_dist emd2 s1 s2 (Some l) w2 /\
  wass_dist emd2 s2 s1 w2 (Some (map (Rmult k) l)) = wass_dist emd2 s2 s1 w2 (Some l).
Proof.
  intros s1 s2 l w2 k Hk HT.
  assert (E : forall n, norm_weights n (Some (map (Rmult k) l)) = norm_weights n (Some l)).
  { intros n. unfold norm_weights. rewrite map_length. destruct (negb _); [reflexivity|]. f_equal.
    assert (T : total (map (Rmult k) l) = k * total l) by (pose proof (total_scale (fun x => x) k l) as TS; rewrite map_id in TS; exact TS).
    unfold xsum. rewrite norm_fin by (rewrite T; intros Z; apply Rmult_integral in Z; destruct Z; contradiction). rewrite norm_fin by assumption.
    f_equal. rewrite map_map, T. apply map_ext. intros x. field. split; assumption. }
  unfold wass_dist. rewrite !E. split; reflexivity.
Qed.
Theorem C53_equal_weights : forall s1 s2 c w2, c <> 0 -> s1 <> [] ->
  wass_dist emd2 s1 s2 (Some (repeat c (length s1))) w2 = wass_dist emd2 s1 s2 None w2 /\
  wass_dist emd2 s2 s1 w2 (Some (repeat c (length s1))) = wass_dist emd2 s2 s1 w2 None.
Proof.
  intros s1 s2 c w2 Hc HN.
  assert (HI : INR (length s1) <> 0) by (apply not_0_INR; destruct s1; [congruence|discriminate]).
  assert (E : norm_weights (length s1) (Some (repeat c (length s1))) = norm_weights (length s1) None).
  { unfold norm_weights. rewrite repeat_length, Nat.eqb_refl. cbn [negb]. f_equal. unfold xsum.
    assert (T : total (repeat c (length s1)) <> 0) by (rewrite total_repeat; intros Z; apply Rmult_integral in Z; destruct Z; contradiction).
    rewrite norm_fin by assumption. rewrite repeat_map, repeat_map. rewrite total_repeat, xdiv_fin by assumption. f_equal. f_equal. field. split; assumption. }
  unfold wass_dist. rewrite !E. split; reflexivity.
Qed.
(** With an exact solver the result is the 2-Wasserstein distance of the two weighted samples. *)
Hypothesis solver : Solver emd2.
Theorem C53_value : forall s1 s2 w1 w2, GoodWeights (length s1) w1 -> GoodWeights (length s2) w2 ->
  exists v, wass_dist emd2 s1 s2 w1 w2 = Ok (XR v) /\ W2dist s1 s2 (normed (length s1) w1) (normed (length s2) w2) v /\
            Prob (normed (length s1) w1) /\ Prob (normed (length s2) w2).
Proof.
  intros s1 s2 w1 w2 G1 G2. destruct (wass_value emd2 s1 s2 w1 w2 solver G1 G2) as (v & E & H). exists v.
  split; [exact E|]. split; [exact H|]. split; [apply (normed_good _ _ G1)|apply (normed_good _ _ G2)].
Qed.
(** It is a metric on weighted samples: non-negative, symmetric, zero exactly for equal distributions, and with the
    triangle inequality. *)
Theorem C53_nonneg : forall s1 s2 w1 w2 v, GoodWeights (length s1) w1 -> GoodWeights (length s2) w2 ->
  wass_dist emd2 s1 s2 w1 w2 = Ok (XR v) -> 0 <= v.
Proof. intros s1 s2 w1 w2 v G1 G2 H. destruct (C53_value s1 s2 w1 w2 G1 G2) as (v' & E & [HV _] & _). congruence. Qed.
Theorem C53_symmetric : forall s1 s2 w1 w2, GoodWeights (length s1) w1 -> GoodWeights (length s2) w2 ->
  wass_dist emd2 s1 s2 w1 w2 = wass_dist emd2 s2 s1 w2 w1.
Proof.
  intros s1 s2 w1 w2 G1 G2. destruct (C53_value s1 s2 w1 w2 G1 G2) as (v & E & HV & _). destruct (C53_value s2 s1 w2 w1 G2 G1) as (v' & E' & HV' & _).
  rewrite E, E'. do 2 f_equal. apply W2_sym in HV'. exact (W2_unique _ _ _ _ _ _ HV HV').
Qed.
Theorem C53_triangle : forall d s1 s2 s3 w1 w2 w3 v12 v23 v13,
  Forall (fun x => length x = d) s1 -> Forall (fun x => length x = d) s2 -> Forall (fun x => length x = d) s3 ->
  GoodWeights (length s1) w1 -> GoodWeights (length s2) w2 -> GoodWeights (length s3) w3 ->
  wass_dist emd2 s1 s2 w1 w2 = Ok (XR v12) -> wass_dist emd2 s2 s3 w2 w3 = Ok (XR v23) -> wass_dist emd2 s1 s3 w1 w3 = Ok (XR v13) ->
  v13 <= v12 + v23.
Proof.
  intros d s1 s2 s3 w1 w2 w3 v12 v23 v13 F1 F2 F3 G1 G2 G3 H12 H23 H13.
  destruct (wass_value emd2 s1 s2 w1 w2 solver G1 G2) as (x & Ex & HX). destruct (wass_value emd2 s2 s3 w2 w3 solver G2 G3) as (y & Ey & HY).
  destruct (wass_value emd2 s1 s3 w1 w3 solver G1 G3) as (z & Ez & HZ).
  assert (x = v12) by congruence. assert (y = v23) by congruence. assert (z = v13) by congruence. subst.
  eapply (W2_triangle d s1 s2 s3); try eassumption; symmetry; apply normed_good; assumption.
Qed.
Theorem C53_zero : forall d s1 s2 w1 w2, Forall (fun x => length x = d) s1 -> Forall (fun x => length x = d) s2 ->
  GoodWeights (length s1) w1 -> GoodWeights (length s2) w2 ->
  (wass_dist emd2 s1 s2 w1 w2 = Ok (XR 0) <-> SameDistribution s1 s2 (normed (length s1) w1) (normed (length s2) w2)).
Proof.
  intros d s1 s2 w1 w2 F1 F2 G1 G2. destruct (wass_value emd2 s1 s2 w1 w2 solver G1 G2) as (x & Ex & HX).
  destruct (normed_good _ _ G1) as (_ & P1 & L1). destruct (normed_good _ _ G2) as (_ & P2 & L2). split.
  - intros H f. assert (x = 0) by congruence. subst. apply (W2_zero d); try assumption; symmetry; assumption.
  - intros H. pose proof (W2_same s1 s2 _ _ P1 P2 (eq_sym L1) (eq_sym L2) H) as H0. rewrite (W2_unique _ _ _ _ _ _ HX H0) in Ex. exact Ex.
Qed.
(** It depends only on the distributions: neither the order of the samples nor splitting a sample into copies matters. *)
Theorem C53_distribution : forall d s1 s1' s2 w1 w1' w2, Forall (fun x => length x = d) s1 -> Forall (fun x => length x = d) s1' -> Forall (fun x => length x = d) s2 ->
  GoodWeights (length s1) w1 -> GoodWeights (length s1') w1' -> GoodWeights (length s2) w2 ->
  SameDistribution s1 s1' (normed (length s1) w1) (normed (length s1') w1') ->
  wass_dist emd2 s1 s2 w1 w2 = wass_dist emd2 s1' s2 w1' w2.
Proof.
  intros d s1 s1' s2 w1 w1' w2 F1 F1' F2 G1 G1' G2 H.
  pose proof (proj2 (C53_zero d s1 s1' w1 w1' F1 F1' G1 G1') H) as Z.
  assert (Z' : wass_dist emd2 s1' s1 w1' w1 = Ok (XR 0)) by (rewrite C53_symmetric; assumption).
  destruct (C53_value s1 s2 w1 w2 G1 G2) as (x & Ex & _). destruct (C53_value s1' s2 w1' w2 G1' G2) as (y & Ey & _).
  pose proof (C53_triangle d s1' s1 s2 w1' w1 w2 0 x y F1' F1 F2 G1' G1 G2 Z' Ex Ey).
  pose proof (C53_triangle d s1 s1' s2 w1 w1' w2 0 y x F1 F1' F2 G1 G1' G2 Z Ey Ex).
  rewrite Ex, Ey. do 2 f_equal. lra.
Qed.
(** One sample on each side: the Euclidean distance. *)
Theorem C53_single : forall x y, wass_dist emd2 [x] [y] None None = Ok (XR (vdist x y)).
Proof.
  intros x y. destruct (wass_value emd2 [x] [y] None None solver) as (v & E & HV); [split; [cbn; lia|exact I]|split; [cbn; lia|exact I]|].
  rewrite E. do 2 f_equal. eapply W2_unique; [exact HV|]. cbn [length normed repeat]. change (INR 1) with 1. rewrite Rinv_1.
  assert (C : forall g, Plan [1] [1] g -> cost 1 1 (fun i j => vdist (nth i [x] []) (nth j [y] []) ^ 2) g = vdist x y ^ 2).
  { intros g (_ & H2 & _). specialize (H2 0%nat ltac:(cbn; lia)). unfold sumn in H2. cbn in H2. assert (G1 : g 0%nat 0%nat = 1) by lra. unfold cost, sumn. cbn [seq map nth]. rewrite !total_cons. change (total []) with 0. rewrite G1. ring. }
  split; [apply vdist_nn|]. cbn [length]. split.
  - intros g Hg. cbn [length]. rewrite (C g Hg). lra.
  - intros eps He. exists (fun _ _ => 1 * 1). assert (P : Plan [1] [1] (fun i j => nth i [1] 0 * nth j [1] 0)) by (apply product_plan; (split; [repeat constructor; lra|cbn; lra])).
    assert (P' : Plan [1] [1] (fun _ _ => 1 * 1)).
    { split; [|split].
      - intros; lra.
      - intros i Hi. cbn in Hi. assert (i = 0%nat) by lia. subst. cbn. unfold sumn. cbn. ring.
      - intros i Hi. cbn in Hi. assert (i = 0%nat) by lia. subst. cbn. unfold sumn. cbn. ring. }
    split; [exact P'|]. cbn [length]. rewrite (C _ P'). lra.
Qed.
End C53.

(** The convergence series: journals without full output, with one iteration, or with parameters of different dimensions
    are refused. *)
Theorem C53_series_refused : forall emd2 type ps ws,
  (type = 0%nat -> wass_series emd2 type ps ws = Err RuntimeError) /\
  (length ws = 1%nat -> wass_series emd2 type ps ws = Err RuntimeError) /\
  (forall ps' rows c1 c2, ps = ps' ++ [Nested rows] -> In c1 (concat rows) -> In c2 (concat rows) -> length c1 <> length c2 ->
     wass_series emd2 type ps ws = Err RuntimeError).
Proof.
  intros emd2 type ps ws. unfold wass_series. split; [|split].
  - intros ->. reflexivity.
  - intros ->. destruct (type =? 0)%nat; reflexivity.
  - intros ps' rows c1 c2 -> H1 H2 HN. destruct (type =? 0)%nat; [reflexivity|]. destruct (length ws =? 1)%nat; [reflexivity|].
    destruct (ps' ++ [Nested rows]) as [|p0 l] eqn:E; [destruct ps'; discriminate|]. rewrite <- E, last_last.
    assert (R : ragged (Nested rows) = true).
    { cbn [ragged]. destruct (concat rows) as [|c cs]; [destruct H1|]. apply Bool.negb_true_iff. apply Bool.not_true_is_false. intros F.
      rewrite forallb_forall in F. assert (G : forall c', In c' (c :: cs) -> length c' = length c).
      { intros c' [<-|HI]; [reflexivity|]. apply Nat.eqb_eq. apply F. assumption. }
      apply HN. rewrite (G c1 H1), (G c2 H2). reflexivity. }
    rewrite R. reflexivity.
Qed.
(** Otherwise it has one entry fewer than iterations: the distances between the weighted samples of consecutive ones. *)
Theorem C53_series : forall emd2 type ps ws ds, (2 <= length ws)%nat -> wass_series emd2 type ps ws = Ok ds ->
  length ds = (length ws - 1)%nat /\
  forall i, (i < length ws - 1)%nat -> exists p1 p2 w1 w2 d,
    nth_error ps i = Some p1 /\ nth_error ps (S i) = Some p2 /\ nth_error ws i = Some w1 /\ nth_error ws (S i) = Some w2 /\
    nth_error ds i = Some d /\ wass_dist emd2 (prows p1) (prows p2) (Some (wflat w1)) (Some (wflat w2)) = Ok d.
Proof.
  intros emd2 type ps ws ds HW H. unfold wass_series in H. destruct (type =? 0)%nat; [discriminate|]. destruct (length ws =? 1)%nat; [discriminate|].
  destruct ps as [|p0 ps0]; [discriminate|]. set (ps := p0 :: ps0) in *. clearbody ps. destruct (ragged (last ps p0)); [discriminate|].
  set (F := fun i : nat => match nth_error ps i, nth_error ps (S i), nth_error ws i, nth_error ws (S i) with
                  | Some p1, Some p2, Some w1, Some w2 => wass_dist emd2 (prows p1) (prows p2) (Some (wflat w1)) (Some (wflat w2))
                  | _, _, _, _ => Err IndexError
                  end) in *.
  assert (G : forall n a ds, fold_right (fun i acc => rthen (F i) (fun d => rthen acc (fun ds => Ok (d :: ds)))) (Ok []) (seq a n) = Ok ds ->
      length ds = n /\ forall i, (i < n)%nat -> exists d, nth_error ds i = Some d /\ F (a + i)%nat = Ok d).
  { clear. induction n as [|n IH]; intros a ds H; [cbn in H; injection H as <-; split; [reflexivity|lia]|]. cbn [seq fold_right] in H.
    destruct (F a) as [d|] eqn:EF; [|discriminate]. cbn [rthen] in H.
    destruct (fold_right _ _ (seq (S a) n)) as [ds'|] eqn:ED; [|discriminate]. cbn [rthen] in H. injection H as <-.
    destruct (IH (S a) ds' ED) as [HL HN]. split; [cbn; lia|]. intros [|i] Hi.
    - exists d. split; [reflexivity|]. rewrite Nat.add_0_r. assumption.
    - destruct (HN i ltac:(lia)) as (d' & E1 & E2). exists d'. split; [exact E1|]. replace (a + S i)%nat with (S a + i)%nat by lia. exact E2. }
  destruct (G _ _ _ H) as [HL HN]. split; [exact HL|]. intros i Hi. destruct (HN i Hi) as (d & E1 & E2). cbn [Nat.add] in E2. unfold F in E2.
  destruct (nth_error ps i) as [p1|]; [|discriminate]. destruct (nth_error ps (S i)) as [p2|]; [|discriminate].
  destruct (nth_error ws i) as [w1|]; [|discriminate]. destruct (nth_error ws (S i)) as [w2|]; [|discriminate].
  exists p1, p2, w1, w2, d. repeat (split; [reflexivity || assumption|]). assumption.
Qed.
Lemma last_default {A} (l : list A) : forall x d d', last (x :: l) d = last (x :: l) d'.
Proof. induction l as [|y l IH]; intros x d d'; [reflexivity|]. change (last (y :: l) d = last (y :: l) d'). apply IH. Qed.
(** A journal of full output with matching lists gives a series. *)
Theorem C53_series_ok : forall emd2 ps ws, (2 <= length ws)%nat -> length ps = length ws -> ragged (last ps (Flat [])) = false ->
  (forall i p w, nth_error ps i = Some p -> nth_error ws i = Some w -> length (wflat w) = length (prows p)) ->
  exists ds, wass_series emd2 1 ps ws = Ok ds.
Proof.
  intros emd2 ps ws HW HL HR HM. unfold wass_series. cbn [Nat.eqb]. destruct (Nat.eqb_spec (length ws) 1); [lia|].
  destruct ps as [|p0 ps0]; [cbn in HL; lia|]. pose proof (last_default ps0 p0 p0 (Flat [])) as EL. set (ps := p0 :: ps0) in *. clearbody ps.
  rewrite EL, HR.
  set (F := fun i : nat => match nth_error ps i, nth_error ps (S i), nth_error ws i, nth_error ws (S i) with
                  | Some p1, Some p2, Some w1, Some w2 => wass_dist emd2 (prows p1) (prows p2) (Some (wflat w1)) (Some (wflat w2))
                  | _, _, _, _ => Err IndexError
                  end).
  assert (HF : forall i, (i < length ws - 1)%nat -> exists d, F i = Ok d).
  { intros i Hi. unfold F.
    destruct (nth_error ps i) as [p1|] eqn:E1; [|apply nth_error_None in E1; lia]. destruct (nth_error ps (S i)) as [p2|] eqn:E2; [|apply nth_error_None in E2; lia].
    destruct (nth_error ws i) as [w1|] eqn:E3; [|apply nth_error_None in E3; lia]. destruct (nth_error ws (S i)) as [w2|] eqn:E4; [|apply nth_error_None in E4; lia].
    unfold wass_dist, norm_weights. rewrite (HM i p1 w1 E1 E3), (HM (S i) p2 w2 E2 E4), !Nat.eqb_refl. cbn [negb rthen]. eexists. reflexivity. }
  assert (G : forall k a, (a + k <= length ws - 1)%nat -> exists ds, fold_right (fun i acc => rthen (F i) (fun d => rthen acc (fun ds => Ok (d :: ds)))) (Ok []) (seq a k) = Ok ds).
  { induction k as [|k IHn]; intros a Ha; [eexists; reflexivity|]. cbn [seq fold_right]. destruct (HF a ltac:(lia)) as [d Ed]. rewrite Ed. cbn [rthen].
    destruct (IHn (S a) ltac:(lia)) as [ds Eds]. rewrite Eds. eexists. reflexivity. }
  apply (G (length ws - 1)%nat 0%nat). lia.
Qed.
Print Assumptions C53_solver_exists.
Print Assumptions C53_triangle.
Print Assumptions C53_distribution.
Print Assumptions C53_series.

(** Two weighted samples of the same distribution: a point with weight 2 and the point twice with weight 1. *)
Example C53_example : GoodWeights 2 (Some [2; 2]) /\ GoodWeights 3 (Some [1; 2; 1]) /\
  SameDistribution [[0]; [5]] [[0]; [5]; [0]] (normed 2 (Some [2; 2])) (normed 3 (Some [1; 2; 1])).
Proof.
  split; [|split].
  - split; [lia|]. split; [reflexivity|]. split; [repeat constructor; lra|cbn; lra].
  - split; [lia|]. split; [reflexivity|]. split; [repeat constructor; lra|cbn; lra].
  - intros f. unfold mean_of, sumn. cbn. field.
Qed.

Print Assumptions C53_refused.
Print Assumptions C53_scale.
Print Assumptions C53_equal_weights.
Print Assumptions C53_value.
Print Assumptions C53_nonneg.
Print Assumptions C53_symmetric.
Print Assumptions C53_zero.
Print Assumptions C53_single.
Print Assumptions C53_series_refused.
Print Assumptions C53_series_ok.
