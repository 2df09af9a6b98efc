(** C97: the distances that the Del Moral version of SMCABC accepts. *)
From Coq Require Import Reals Lra Lia String.
From Verif Require Import M_Base M_Num M_XReal M_MMD M_Stats M_Distance M_KNN M_Wass M_Sliced M_Declared S_Stats S_Distance S_MMD S_KNN S_Wass S_Sliced
  L_PMC L_Stats L_Distance L_PosDef L_MMD L_KNN L_Joint L_Wass P_Distance P_MMD P_KNN P_Wass P_Sliced P_Declared.
Open Scope R_scope.

(** The distance between the observations and the simulations of one parameter is the mean of the distances to the single simulations.
    The Del Moral version weights a parameter by the share of its single simulations that are close (inferences.py 3578-3587). *)
Definition Pointwise (d : list vec -> list vec -> res xr) : Prop :=
  forall p obs sims, obs <> [] -> sims <> [] -> Rows p obs -> Rows p sims ->
  exists v (single : vec -> R), d obs sims = Ok (XR v) /\ (forall y, In y sims -> d obs [y] = Ok (XR (single y))) /\ v = average (map single sims).

Section C97.
Variable G : Type.
Variable normals : G -> nat -> nat -> G * list (list R).
Variable emd : list xr -> list xr -> list xr -> list xr -> xr.
Variable emd2 : list xr -> list xr -> list (list R) -> xr.
Notation distance := (object_distance G normals emd emd2).

(** C97 (SMCABC): the constructor knows two versions, takes all distances in the Bernton version, and in the Del Moral version those that
    are means of distances to single simulations. *)
Theorem C97_smcabc : forall version os,
  (forall b, smc_check version os = Ok b -> version = (if b then "Bernton" else "DelMoral")%string)
  /\ smc_check "Bernton" os = Ok true
  /\ (smc_check "DelMoral" os = Ok false -> forall o g p, In o os -> Pointwise (distance g o p))
  /\ smc_check "DelMoral" [] = Ok false /\ smc_check "DelMoral" [OEuclidean; OEuclidean] = Ok false
  /\ (version <> "Bernton" -> version <> "DelMoral" -> smc_check version os = Err RuntimeError)%string.
Proof.
  intros version os. split; [|split; [reflexivity|split; [|split; [reflexivity|split; [reflexivity|]]]]].
  - intros b. unfold smc_check. cbn [existsb]. destruct (String.eqb_spec version "DelMoral") as [->|N1]; cbn [orb negb].
    + cbn [String.eqb Ascii.eqb Bool.eqb negb andb]. destruct (existsb is_divergence os); [discriminate|]. intros H. injection H as <-. reflexivity.
    + destruct (String.eqb_spec version "Bernton") as [->|N2]; cbn [orb negb andb]; [intros H; injection H as <-; reflexivity | discriminate].
  - intros H o g p Hin. assert (D : is_divergence o = false).
    { destruct (is_divergence o) eqn:E; [|reflexivity]. exfalso. unfold smc_check in H. cbn in H. destruct (existsb is_divergence os) eqn:X; [discriminate H|].
      assert (existsb is_divergence os = true) by (apply existsb_exists; exists o; split; assumption). congruence. }
    destruct o; try discriminate D. intros q obs sims N1 N2 R1 R2. cbn [object_distance].
    exists (mean_dist obs sims), (fun y => mean_dist obs [y]). split; [apply (euclid_fin p p); assumption|]. split; [intros y _; apply (euclid_fin p p); [assumption | discriminate]|].
    rewrite mean_psum, psum_sym. unfold average. rewrite map_length.
    assert (L1 : INR (length obs) <> 0) by (apply not_0_INR; destruct obs; [congruence | discriminate]).
    assert (L2 : INR (length sims) <> 0) by (apply not_0_INR; destruct sims; [congruence | discriminate]).
    transitivity ((/ INR (length obs) * psum vdist sims obs) / INR (length sims)); [field; split; assumption|]. f_equal. unfold psum.
    rewrite <- total_scale. apply f_equal, map_ext. intros y. rewrite mean_psum, psum_sym. unfold psum. cbn [map length INR]. unfold total at 2. cbn [fold_right]. field. assumption.
  - intros N1 N2. unfold smc_check. cbn [existsb]. destruct (String.eqb_spec version "DelMoral"); [contradiction|]. destruct (String.eqb_spec version "Bernton"); [contradiction|]. reflexivity.
Qed.

(** C97 (SMCABC): a refused distance that is no such mean.  The energy distance of the observation 0 to each of the simulations 1 and -1 is 2; to the two together it is 1. *)
Theorem C97_smcabc_refusal : exists kern, energy_init (Euclidean 1) = Ok kern /\ smc_check "DelMoral" [OEnergy kern true] = Err RuntimeError /\ smc_check "DelMoral" [OEuclidean; OEnergy kern true] = Err RuntimeError
  /\ forall g, ~ Pointwise (distance g (OEnergy kern true) 1).
Proof.
  destruct (C38_energy 1 1 [[0]] [[0]] ltac:(lra)) as (kern & _ & Ek & _); [repeat constructor | repeat constructor | discriminate | discriminate|].
  exists kern. split; [exact Ek|]. split; [reflexivity|]. split; [reflexivity|]. intros g P.
  destruct (proj2 (C38_euclidean 1) ltac:(lra)) as (d & Ed & _ & _ & Hsym & _).
  unfold def_euclidean in Ed. destruct (Rle_dec 1 0); [lra|]. destruct (Rlt_dec 2 1); [lra|]. destruct (Req_EM_T 1 1); [|congruence]. injection Ed as <-.
  unfold energy_init, def_euclidean in Ek. destruct (Rle_dec 1 0); [lra|]. destruct (Rlt_dec 2 1); [lra|]. destruct (Req_EM_T 1 1); [|congruence]. cbn in Ek. injection Ek as <-.
  destruct (P 1%nat [[0]] [[1]; [-1]] ltac:(discriminate) ltac:(discriminate)) as (v & single & Ev & Es & Hv); [repeat constructor | repeat constructor|].
  assert (V : forall xs ys, xs <> [] -> ys <> [] -> mmd_distance (Pairwise (fun x y => - M_MMD.norm x y)) true xs ys = Ok (MMD2 (fun x y => - M_MMD.norm x y) xs ys)).
  { intros xs ys Nx Ny. apply (proj1 (C38_value (Pairwise (fun x y => - M_MMD.norm x y)) (fun x y => - M_MMD.norm x y) xs ys ltac:(right; split; [reflexivity | intros x y; rewrite Hsym; reflexivity]))); assumption. }
  assert (S : forall y, In y [[1]; [-1]] -> single y = 2).
  { intros y Hy. specialize (Es y Hy). cbn [object_distance] in Es. unfold plain in Es. rewrite V in Es by discriminate. cbn [rthen] in Es. injection Es as Es. rewrite <- Es.
    unfold MMD2, mean_pairs, average. destruct Hy as [<-|[<-|[]]]; cbn [flat_map map app length total fold_right INR]; unfold total, M_MMD.norm, rsuml; cbn [combine map fst snd fold_right];
      replace ((0 - 0) * (0 - 0) + 0) with 0 by ring; [replace ((1 - 1) * (1 - 1) + 0) with 0 by ring; replace ((0 - 1) * (0 - 1) + 0) with 1 by ring
      | replace ((-1 - -1) * (-1 - -1) + 0) with 0 by ring; replace ((0 - -1) * (0 - -1) + 0) with 1 by ring]; rewrite sqrt_0, sqrt_1; field. }
  cbn [object_distance] in Ev. unfold plain in Ev. rewrite V in Ev by discriminate. cbn [rthen] in Ev. injection Ev as Ev.
  cbn [map] in Hv. rewrite !S in Hv by (cbn; tauto). unfold average in Hv. cbn in Hv.
  assert (W : v = 1); [|rewrite W in Hv; unfold total in Hv; cbn in Hv; lra]. rewrite <- Ev. unfold MMD2, mean_pairs, average. cbn [flat_map map app length INR]. unfold total, M_MMD.norm, rsuml. cbn [combine map fst snd fold_right].
  replace ((0 - 0) * (0 - 0) + 0) with 0 by ring. replace ((1 - 1) * (1 - 1) + 0) with 0 by ring. replace ((-1 - -1) * (-1 - -1) + 0) with 0 by ring.
  replace ((0 - 1) * (0 - 1) + 0) with 1 by ring. replace ((0 - -1) * (0 - -1) + 0) with 1 by ring.
  replace ((1 - -1) * (1 - -1) + 0) with (2 * 2) by ring. replace ((-1 - 1) * (-1 - 1) + 0) with (2 * 2) by ring. rewrite sqrt_0, sqrt_1, sqrt_square by lra. field.
Qed.
End C97.
Print Assumptions C97_smcabc.
Print Assumptions C97_smcabc_refusal.
