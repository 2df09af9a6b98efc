(** C40: discrete priors. *)
From Coq Require Import Reals Binomial Lra Lia List ZArith.
From Verif Require Import M_Base M_Num M_XReal M_Transform M_MMD M_Stats M_Priors S_Stats S_Priors L_PMC L_Stats L_Distance L_Priors.
Import ListNotations.
Open Scope R_scope.

(** the number returned, 0 if none *)
Definition mass (r : res xr) : R := match r with Ok (XR v) => v | _ => 0 end.
(** a number in the unit interval, of any Python type *)
Definition Prob (p : pyv) (r : R) : Prop := val p = XR r /\ 0 <= r <= 1.
(** a number equal to an integer *)
Definition IsZ (x : pyv) (z : Z) : Prop := val x = XR (IZR z).

(** ** Bernoulli *)
Theorem C40_bernoulli :
  forall p r, Prob p r ->
  (forall x z, IsZ x z -> (0 <= z)%Z -> bern_pmf p x = XR (chance r 1 (Z.to_nat z)))
  /\ (forall x, (forall z, (z = 0 \/ z = 1)%Z -> ~ IsZ x z) -> bern_pmf p x = XR 0)
  /\ bern_pmf p (PyInt 1) = XR r /\ bern_pmf p (PyInt 0) = XR (1 - r).
Proof.
  intros p r (Hp & Hr).
  assert (E : forall x, bern_pmf p x = match as_int (val x) with Some 0%Z => XR (1 - r) | Some 1%Z => XR r | _ => XR 0 end).
  { intros x. unfold bern_pmf. rewrite Hp. replace (xle x0 (XR r)) with true by (symmetry; apply xle_fin; lra). replace (xle (XR r) x1) with true by (symmetry; apply xle_fin; lra). reflexivity. }
  split; [|split; [|split]].
  - intros x z Hx Hz. rewrite E, Hx, as_int_IZR. destruct (Z.eq_dec z 0) as [->|H0].
    { change (Z.to_nat 0) with 0%nat. rewrite chance_formula, C_0 by lia. f_equal. cbn [Nat.sub pow]. ring. }
    destruct (Z.eq_dec z 1) as [->|H1].
    { change (Z.to_nat 1) with 1%nat. rewrite chance_formula, C_n by lia. f_equal. cbn [Nat.sub pow]. ring. }
    rewrite chance_large by lia. destruct z as [|[q|q|]|q]; try reflexivity; lia.
  - intros x Hx. rewrite E. destruct (as_int (val x)) as [z|] eqn:Ez; [|reflexivity]. apply as_int_spec in Ez.
    destruct (Z.eq_dec z 0) as [->|H0]; [exfalso; apply (Hx 0%Z); [now left | exact Ez]|].
    destruct (Z.eq_dec z 1) as [->|H1]; [exfalso; apply (Hx 1%Z); [now right | exact Ez]|].
    destruct z as [|[q|q|]|q]; try reflexivity; lia.
  - rewrite E. change (val (PyInt 1)) with (XR (IZR 1)). now rewrite as_int_IZR.
  - rewrite E. change (val (PyInt 0)) with (XR (IZR 0)). now rewrite as_int_IZR.
Qed.
Print Assumptions C40_bernoulli.

(** ** Binomial: the probability of exactly z successes in n independent trials *)
Theorem C40_binomial :
  forall n p r, (0 <= n)%Z -> Prob p r ->
  (forall x z, IsZ x z -> (0 <= z)%Z -> binom_pmf n p x = Ok (XR (chance r (Z.to_nat n) (Z.to_nat z))))
  /\ (forall z, (n < z)%Z -> binom_pmf n p (PyInt z) = Ok (XR 0))
  /\ (forall z, (0 <= z)%Z -> 0 <= mass (binom_pmf n p (PyInt z)))
  /\ total (map (fun k => mass (binom_pmf n p (PyInt (Z.of_nat k)))) (seq 0 (S (Z.to_nat n)))) = 1.
Proof.
  intros n p r Hn (Hp & Hr).
  assert (E : forall x z, IsZ x z -> (0 <= z)%Z -> binom_pmf n p x = Ok (XR (chance r (Z.to_nat n) (Z.to_nat z)))).
  { intros x z Hx Hz. unfold binom_pmf. rewrite (to_int_z x z Hx). cbn [rthen]. destruct (Z.ltb_spec n z) as [H|H].
    - rewrite chance_large by lia. reflexivity.
    - unfold pypowz. destruct (Z.leb_spec 0 z); [|lia]. cbn [rthen]. rewrite Hp, xpow_fin. unfold xsub, x1. cbn [xopp xadd]. rewrite xpow_fin. cbn [xmul]. do 2 f_equal.
      rewrite chance_formula by lia. unfold comb. destruct (Z.ltb_spec z 0); [lia|]. destruct (Z.ltb_spec n z); [lia|]. cbn [orb].
      replace (Z.to_nat (n - z)) with (Z.to_nat n - Z.to_nat z)%nat by lia. f_equal. }
  split; [exact E | split; [|split]].
  - intros z Hz. unfold binom_pmf. cbn [to_int rthen]. destruct (Z.ltb_spec n z); [reflexivity|lia].
  - intros z Hz. rewrite (E (PyInt z) z eq_refl Hz). cbn [mass]. now apply chance_nonneg.
  - rewrite <- (chance_total r (Z.to_nat n)). f_equal. apply map_ext. intros k. rewrite (E (PyInt (Z.of_nat k)) (Z.of_nat k) eq_refl) by lia. cbn [mass]. now rewrite Nat2Z.id.
Qed.
Print Assumptions C40_binomial.

(** Negative integers have mass 0 when p > 0 is a float or Python integer ... *)
Theorem C40_binomial_negative :
  forall n p r z, (0 <= n)%Z -> val p = XR r -> 0 < r <= 1 -> (forall w q, p <> NpInt w q) -> (z < 0)%Z -> binom_pmf n p (PyInt z) = Ok (XR 0).
Proof.
  intros n p r z Hn Hp Hr Hw Hz. unfold binom_pmf. cbn [to_int rthen]. destruct (Z.ltb_spec n z); [lia|]. unfold pypowz. destruct (Z.leb_spec 0 z); [lia|].
  assert (Hpow : 0 < r ^ Z.to_nat (- z)) by (apply pow_lt; lra).
  assert (Ed : xdiv x1 (xpow (XR r) (Z.to_nat (- z))) = XR (1 / r ^ Z.to_nat (- z))) by (rewrite xpow_fin; unfold x1; cbn [xdiv]; now rewrite (rsign_pos _ Hpow)).
  assert (Ec : comb n z = 0) by (unfold comb; destruct (Z.ltb_spec z 0); [reflexivity|lia]).
  assert (Er : rsign r = Some true) by (apply rsign_pos; lra).
  assert (Ef : forall a, rthen (Ok (XR a)) (fun a => Ok (xmul (xmul (XR (comb n z)) a) (xpow (xsub x1 (val p)) (Z.to_nat (n - z))))) = Ok (XR 0)).
  { intros a. cbn [rthen]. rewrite Ec, Hp. unfold xsub, x1. cbn [xopp xadd]. rewrite xpow_fin. cbn [xmul]. do 2 f_equal. ring. }
  destruct p as [q|w q|y|y]; [| exfalso; now apply (Hw w q) | |]; rewrite ?Hp, ?Er, ?Ed, <- ?Hp; apply Ef.
Qed.
Print Assumptions C40_binomial_negative.
(** ... but for p = 0 the density of a negative number raises or is not a number, and for a numpy integer p (the value of a Bernoulli model) it raises. *)
Theorem C40_binomial_negative_refuted :
  forall n z, (0 <= n)%Z -> (z < 0)%Z ->
  binom_pmf n (PyFlt (XR 0)) (PyInt z) = Err ZeroDivisionError /\ binom_pmf n (PyInt 0) (PyInt z) = Err ZeroDivisionError
  /\ binom_pmf n (NpFlt (XR 0)) (PyInt z) = Ok XNaN /\ (forall w q, binom_pmf n (NpInt w q) (PyInt z) = Err ValueError).
Proof.
  intros n z Hn Hz. unfold binom_pmf. cbn [to_int rthen]. destruct (Z.ltb_spec n z); [lia|]. unfold pypowz. destruct (Z.leb_spec 0 z); [lia|]. cbn [val]. rewrite rsign_zero.
  split; [reflexivity|]. split; [reflexivity|]. split; [|intros; reflexivity].
  cbn [rthen]. rewrite xpow_fin. replace (0 ^ Z.to_nat (- z)) with 0 by (symmetry; apply pow_ne_zero; lia). unfold x1 at 1. cbn [xdiv]. rewrite rsign_zero, (rsign_pos 1) by lra. cbn [negb xneg].
  unfold comb. destruct (Z.ltb_spec z 0); [|lia]. cbn [orb xmul xsgn]. rewrite rsign_zero. cbn [xmul xsgn]. reflexivity.
Qed.
Print Assumptions C40_binomial_negative_refuted.
(** A number that is not an integer gets the mass of the integer towards zero, so that points the sampler never returns have positive mass. *)
Theorem C40_binomial_truncates_refuted :
  forall n p r y, (0 <= n)%Z -> Prob p r -> -1 < y < 0 -> r < 1 ->
  binom_pmf n p (PyFlt (XR y)) = binom_pmf n p (PyInt 0) /\ 0 < mass (binom_pmf n p (PyFlt (XR y))).
Proof.
  intros n p r y Hn Hp Hy Hr. assert (E : binom_pmf n p (PyFlt (XR y)) = binom_pmf n p (PyInt 0)).
  { unfold binom_pmf. cbn [to_int]. destruct (Rlt_dec y 0); [|lra]. rewrite (Int_part_unique (- y) 0) by lra. reflexivity. }
  split; [exact E|]. rewrite E. destruct (C40_binomial n p r Hn Hp) as (A & _). rewrite (A (PyInt 0) 0%Z eq_refl) by lia. cbn [mass]. change (Z.to_nat 0) with 0%nat.
  rewrite chance_formula by lia. rewrite C_0. cbn [pow]. rewrite !Rmult_1_l. apply pow_lt. lra.
Qed.
Print Assumptions C40_binomial_truncates_refuted.

(** ** what the samplers return: every sample is an array with one number of positive mass, and refused parameters are refused by the sampler *)
Lemma successes_hits u p i n : successes u p i n = hits (map (fun j => if Rlt_dec (u i j) p then true else false) (seq 0 n)).
Proof. unfold successes, hits. induction (seq 0 n) as [|j l IH]; [reflexivity|]. cbn [map filter]. destruct (Rlt_dec (u i j) p); cbn [length]; now rewrite IH. Qed.
Lemma drawn_weight (u : nat -> nat -> R) p i n : (forall i j, 0 <= u i j < 1) -> 0 < weight p (map (fun j => if Rlt_dec (u i j) p then true else false) (seq 0 n)).
Proof. intros Hu. induction (seq 0 n) as [|j l IH]; [cbn; lra|]. cbn [map]. rewrite weight_cons. apply Rmult_lt_0_compat; [|exact IH]. pose proof (Hu i j). destruct (Rlt_dec (u i j) p); lra. Qed.
Theorem C40_binomial_samples :
  forall u n p r k, (forall i j, 0 <= u i j < 1) -> (0 <= n)%Z -> Prob p r ->
  exists l, binom_sample u n p k = Ok l /\ length l = k
  /\ (forall s, In s l -> exists z, s = [z] /\ (0 <= z <= n)%Z /\ 0 < mass (binom_pmf n p (PyInt z))).
Proof.
  intros u n p r k Hu Hn (Hp & Hr). unfold binom_sample, np_binomial. destruct (Z.ltb_spec n 0); [lia|]. rewrite Hp. destruct (Rlt_dec r 0); [lra|]. destruct (Rlt_dec 1 r); [lra|].
  cbn [arrays rthen]. eexists. split; [reflexivity|]. split; [now rewrite !map_length, seq_length|].
  intros s Hs. rewrite map_map in Hs. apply in_map_iff in Hs. destruct Hs as (i & <- & _). eexists. split; [reflexivity|].
  rewrite successes_hits. set (o := map _ (seq 0 (Z.to_nat n))). assert (Ho : length o = Z.to_nat n) by (unfold o; now rewrite map_length, seq_length).
  pose proof (hits_le o). split; [lia|]. destruct (C40_binomial n p r Hn (conj Hp Hr)) as (A & _). rewrite (A (PyInt (Z.of_nat (hits o))) _ eq_refl) by lia. cbn [mass]. rewrite Nat2Z.id, <- Ho.
  apply chance_pos; [exact Hr|]. apply drawn_weight, Hu.
Qed.
Print Assumptions C40_binomial_samples.
Theorem C40_bernoulli_samples :
  forall u p r k, (forall i j, 0 <= u i j < 1) -> Prob p r ->
  exists l, bern_sample u p k = Ok l /\ length l = k
  /\ (forall s, In s l -> exists z, s = [z] /\ (z = 0 \/ z = 1)%Z /\ 0 < mass (Ok (bern_pmf p (PyInt z)))).
Proof.
  intros u p r k Hu Hp. destruct (C40_binomial_samples u 1 p r k Hu ltac:(lia) Hp) as (l & E & Hl & H). exists l. split; [exact E | split; [exact Hl|]].
  intros s Hs. destruct (H s Hs) as (z & -> & Hz & Hm). exists z. split; [reflexivity|]. split; [lia|].
  destruct (C40_bernoulli p r Hp) as (A & _). destruct (C40_binomial 1 p r ltac:(lia) Hp) as (B & _).
  rewrite (A (PyInt z) z eq_refl) by lia. rewrite (B (PyInt z) z eq_refl) in Hm by lia. exact Hm.
Qed.
Print Assumptions C40_bernoulli_samples.

(** ** Poisson: a distribution on the natural numbers whose mean is the integer part of the parameter *)
Lemma infsum_scale f l c : infinite_sum f l -> infinite_sum (fun k => f k * c) (l * c).
Proof.
  intros H. assert (Hc : Un_cv (fun n => sum_f_R0 f n * c) (l * c)).
  { apply CV_mult; [exact H|]. intros eps He. exists 0%nat. intros. unfold R_dist. now rewrite Rminus_diag_eq, Rabs_R0 by reflexivity. }
  intros eps He. destruct (Hc eps He) as (N & HN). exists N. intros n Hn. specialize (HN n Hn). rewrite <- (Rmult_comm c), scal_sum in HN. exact HN.
Qed.
Lemma infsum_ext f g l : (forall k, f k = g k) -> infinite_sum f l -> infinite_sum g l.
Proof. intros E H eps He. destruct (H eps He) as (N & HN). exists N. intros n Hn. rewrite <- (sum_eq f g) by auto. now apply HN. Qed.
Lemma infsum_shift f l : infinite_sum f l -> infinite_sum (fun k => match k with O => 0 | S j => f j end) l.
Proof.
  intros H eps He. destruct (H eps He) as (N & HN). exists (S N). intros [|n] Hn; [lia|]. specialize (HN n ltac:(lia)).
  replace (sum_f_R0 (fun k => match k with O => 0 | S j => f j end) (S n)) with (sum_f_R0 f n); [exact HN|].
  clear. induction n as [|n IH]; [cbn; ring|]. cbn [sum_f_R0] in *. rewrite IH. ring.
Qed.
Lemma poisson_value mean r z : val mean = XR r -> 0 <= r -> (0 <= z)%Z ->
  poisson_pmf mean (PyInt z) = Ok (XR (IZR (Int_part r) ^ Z.to_nat z * exp (- IZR (Int_part r)) / INR (fact (Z.to_nat z)))).
Proof.
  intros Hm Hr Hz. unfold poisson_pmf. assert (E : to_int mean = Ok (Int_part r)).
  { destruct mean as [y|w y|[q| | |]|[q| | |]]; cbn in Hm |- *; try discriminate; injection Hm as <-; rewrite ?Int_part_IZR; try reflexivity; (destruct (Rlt_dec q 0); [lra|reflexivity]). }
  rewrite E. cbn [rthen]. pose proof (Int_part_bounds r). assert (0 <= Int_part r)%Z by (apply Z.lt_succ_r, lt_IZR; rewrite succ_IZR; lra).
  destruct (Z.ltb_spec (Int_part r) 0); [lia|]. cbn [val]. rewrite as_int_IZR. destruct (Z.ltb_spec z 0); [lia|]. reflexivity.
Qed.
Theorem C40_poisson :
  forall mean r, val mean = XR r -> 0 <= r ->
  infinite_sum (fun k => mass (poisson_pmf mean (PyInt (Z.of_nat k)))) 1
  /\ infinite_sum (fun k => INR k * mass (poisson_pmf mean (PyInt (Z.of_nat k)))) (IZR (Int_part r))
  /\ (forall k, 0 <= mass (poisson_pmf mean (PyInt (Z.of_nat k))))
  /\ (forall x, (forall z, (0 <= z)%Z -> ~ IsZ x z) -> poisson_pmf mean x = Ok (XR 0)).
Proof.
  intros mean r Hm Hr. set (m := IZR (Int_part r)).
  assert (Hm0 : 0 <= m). { unfold m. pose proof (Int_part_bounds r). assert (0 <= Int_part r)%Z by (apply Z.lt_succ_r, lt_IZR; rewrite succ_IZR; lra). now apply IZR_le. }
  assert (E : forall k, mass (poisson_pmf mean (PyInt (Z.of_nat k))) = / INR (fact k) * m ^ k * exp (- m)).
  { intros k. rewrite (poisson_value mean r (Z.of_nat k) Hm Hr) by lia. cbn [mass]. rewrite Nat2Z.id. fold m. unfold Rdiv. ring. }
  assert (Hs : infinite_sum (fun k => / INR (fact k) * m ^ k * exp (- m)) 1).
  { replace 1 with (exp m * exp (- m)) by (rewrite <- exp_plus; replace (m + - m) with 0 by ring; apply exp_0). apply infsum_scale. unfold exp. destruct (exist_exp m) as [l Hl]. exact Hl. }
  split; [|split; [|split]].
  - eapply infsum_ext; [|exact Hs]. intros k. now rewrite E.
  - replace m with (1 * m) by ring. apply infsum_shift in Hs. apply (infsum_scale _ _ m) in Hs. eapply infsum_ext; [|exact Hs]. intros [|k]; [cbn [INR]; ring|]. rewrite E.
    rewrite fact_simpl, mult_INR, <- tech_pow_Rmult. field. split; [apply INR_fact_neq_0 | apply not_0_INR; lia].
  - intros k. rewrite E. apply Rmult_le_pos; [|left; apply exp_pos]. apply Rmult_le_pos; [|now apply pow_le]. left. apply Rinv_0_lt_compat, INR_fact_lt_0.
  - intros x Hx. unfold poisson_pmf. assert (Et : to_int mean = Ok (Int_part r)).
    { destruct mean as [y|w y|[q| | |]|[q| | |]]; cbn in Hm |- *; try discriminate; injection Hm as <-; rewrite ?Int_part_IZR; try reflexivity; (destruct (Rlt_dec q 0); [lra|reflexivity]). }
    rewrite Et. cbn [rthen]. destruct (Z.ltb_spec (Int_part r) 0) as [Hn|Hn]; [apply IZR_lt in Hn; unfold m in Hm0; lra|].
    destruct (as_int (val x)) as [z|] eqn:Ez; [|reflexivity]. apply as_int_spec in Ez. destruct (Z.ltb_spec z 0); [reflexivity|]. exfalso. now apply (Hx z).
Qed.
Print Assumptions C40_poisson.
(** The parameter is documented as the mean of the distribution; every parameter below 1 gives the distribution concentrated in 0. *)
Theorem C40_poisson_mean_refuted :
  forall mean r, val mean = XR r -> 0 < r < 1 ->
  poisson_pmf mean (PyInt 0) = Ok (XR 1) /\ (forall k, (0 < k)%nat -> poisson_pmf mean (PyInt (Z.of_nat k)) = Ok (XR 0))
  /\ ~ infinite_sum (fun k => INR k * mass (poisson_pmf mean (PyInt (Z.of_nat k)))) r.
Proof.
  intros mean r Hm Hr. assert (E0 : Int_part r = 0%Z) by (apply Int_part_unique; lra).
  split; [|split].
  - rewrite (poisson_value mean r 0 Hm) by (lra || lia). rewrite E0. change (Z.to_nat 0) with 0%nat. cbn [pow fact INR]. rewrite Ropp_0, exp_0. do 2 f_equal. field.
  - intros k Hk. rewrite (poisson_value mean r (Z.of_nat k) Hm) by (lra || lia). rewrite E0, Nat2Z.id. rewrite pow_ne_zero by lia. do 2 f_equal. unfold Rdiv. ring.
  - intros H. destruct (C40_poisson mean r Hm ltac:(lra)) as (_ & H' & _). rewrite E0 in H'. pose proof (UL_sequence _ _ _ H H'). lra.
Qed.
Print Assumptions C40_poisson_mean_refuted.
Theorem C40_poisson_samples :
  forall pois mean r k, val mean = XR r -> 0 <= r ->
  exists l, poisson_sample pois mean k = Ok l /\ length l = k /\ (forall s, In s l -> exists z, s = [z] /\ (0 <= z)%Z /\ 0 < mass (poisson_pmf mean (PyInt z))).
Proof.
  intros pois mean r k Hm Hr. unfold poisson_sample. assert (Et : to_int mean = Ok (Int_part r)).
  { destruct mean as [y|w y|[q| | |]|[q| | |]]; cbn in Hm |- *; try discriminate; injection Hm as <-; rewrite ?Int_part_IZR; try reflexivity; (destruct (Rlt_dec q 0); [lra|reflexivity]). }
  rewrite Et. cbn [rthen]. pose proof (Int_part_bounds r) as Hb. assert (H0 : (0 <= Int_part r)%Z) by (apply Z.lt_succ_r, lt_IZR; rewrite succ_IZR; lra).
  destruct (Z.ltb_spec (Int_part r) 0); [lia|]. cbn [arrays rthen]. eexists. split; [reflexivity|]. split; [now rewrite !map_length, seq_length|].
  intros s Hs. rewrite map_map in Hs. apply in_map_iff in Hs. destruct Hs as (i & <- & _). eexists. split; [reflexivity|].
  destruct (Z.eqb_spec (Int_part r) 0) as [E|E]; (split; [lia|]); rewrite (poisson_value mean r _ Hm Hr) by lia; cbn [mass].
  - rewrite E. change (Z.to_nat 0) with 0%nat. cbn [pow fact INR]. rewrite Ropp_0, exp_0. lra.
  - unfold Rdiv. apply Rmult_lt_0_compat; [|apply Rinv_0_lt_compat, INR_fact_lt_0]. apply Rmult_lt_0_compat; [|apply exp_pos]. apply pow_lt, IZR_lt. lia.
Qed.
Print Assumptions C40_poisson_samples.

(** ** DiscreteUniform: the mass of an integer is the fraction of the equally likely draws that lead to it *)
Definition draws_to (lo z : Z) (N : nat) : nat := length (filter (fun d => Z.eqb (lo + Z.of_nat d) z) (seq 0 N)).
Lemma draws_to_spec lo z : forall N, draws_to lo z N = if ((lo <=? z) && (z <? lo + Z.of_nat N))%Z then 1%nat else 0%nat.
Proof.
  unfold draws_to. induction N as [|N IH]; [cbn; destruct (Z.leb_spec lo z), (Z.ltb_spec z (lo + 0)); cbn; try reflexivity; lia|].
  rewrite seq_S, filter_app, app_length, IH. cbn [filter Nat.add]. destruct (Z.eqb_spec (lo + Z.of_nat N) z) as [E|E];
  destruct (Z.leb_spec lo z), (Z.ltb_spec z (lo + Z.of_nat N)), (Z.ltb_spec z (lo + Z.of_nat (S N))); cbn; try reflexivity; lia.
Qed.
Lemma du_value lo hi z : (lo <= hi)%Z -> du_pmf lo hi (PyInt z) = XR (INR (draws_to lo z (Z.to_nat (hi - lo + 1))) / INR (Z.to_nat (hi - lo + 1))).
Proof.
  intros H. unfold du_pmf. cbn [val]. rewrite draws_to_spec, Z2Nat.id by lia. rewrite INR_IZR_INZ, (INR_IZR_INZ (Z.to_nat _)), Z2Nat.id by lia.
  destruct (Z.leb_spec lo z) as [H1|H1].
  - replace (xle (XR (IZR lo)) (XR (IZR z))) with true by (symmetry; apply xle_fin; now apply IZR_le). destruct (Z.ltb_spec z (lo + (hi - lo + 1))) as [H2|H2].
    + replace (xle (XR (IZR z)) (XR (IZR hi))) with true by (symmetry; apply xle_fin; apply IZR_le; lia). reflexivity.
    + replace (xle (XR (IZR z)) (XR (IZR hi))) with false by (symmetry; apply xle_fin_false; apply IZR_lt; lia). cbn. unfold x0. f_equal. unfold Rdiv. ring.
  - replace (xle (XR (IZR lo)) (XR (IZR z))) with false by (symmetry; apply xle_fin_false; now apply IZR_lt). cbn. unfold x0. f_equal. unfold Rdiv. ring.
Qed.
Lemma total_const {A} (l : list A) c : total (map (fun _ => c) l) = INR (length l) * c.
Proof. induction l as [|a l IH]; [change (total []) with 0; cbn; ring|]. cbn [map length]. rewrite total_cons, IH, S_INR. ring. Qed.
Theorem C40_discrete_uniform :
  forall lo hi, (lo <= hi)%Z -> let N := Z.to_nat (hi - lo + 1) in
  (forall z, du_pmf lo hi (PyInt z) = XR (INR (draws_to lo z N) / INR N))
  /\ (forall z, (lo <= z <= hi)%Z -> du_pmf lo hi (PyInt z) = XR (1 / IZR (hi - lo + 1)))
  /\ (forall z, (z < lo \/ hi < z)%Z -> du_pmf lo hi (PyInt z) = XR 0)
  /\ total (map (fun d => mass (Ok (du_pmf lo hi (PyInt (lo + Z.of_nat d))))) (seq 0 N)) = 1
  /\ (forall d k, (forall i m, (0 < m)%nat -> (d i m < m)%nat) -> exists l, du_sample d lo hi k = Ok l /\ length l = k
      /\ (forall i, (i < k)%nat -> nth_error l i = Some [(lo + Z.of_nat (d i N))%Z]) /\ (forall s, In s l -> exists z, s = [z] /\ (lo <= z <= hi)%Z)).
Proof.
  intros lo hi H N. assert (HN : (0 < N)%nat) by (unfold N; lia). assert (HR : IZR (hi - lo + 1) = INR N) by (unfold N; rewrite INR_IZR_INZ, Z2Nat.id by lia; reflexivity).
  split; [intros; now apply du_value|]. split; [|split; [|split]].
  - intros z Hz. rewrite du_value by exact H. fold N. rewrite draws_to_spec. destruct (Z.leb_spec lo z), (Z.ltb_spec z (lo + Z.of_nat N)); unfold N in *; try lia. cbn [andb INR]. now rewrite HR.
  - intros z Hz. rewrite du_value by exact H. fold N. rewrite draws_to_spec. destruct (Z.leb_spec lo z), (Z.ltb_spec z (lo + Z.of_nat N)); unfold N in *; try lia; cbn [andb INR]; f_equal; unfold Rdiv; ring.
  - rewrite (map_ext_in _ (fun _ => 1 / INR N)).
    + rewrite total_const, seq_length. field. apply not_0_INR. lia.
    + intros d Hd. apply in_seq in Hd. rewrite du_value by exact H. cbn [mass]. fold N. rewrite draws_to_spec. destruct (Z.leb_spec lo (lo + Z.of_nat d)), (Z.ltb_spec (lo + Z.of_nat d) (lo + Z.of_nat N)); try lia. reflexivity.
  - intros d k Hd. unfold du_sample. destruct (Z.leb_spec (hi + 1) lo); [lia|]. cbn [arrays rthen]. eexists. split; [reflexivity|]. split; [now rewrite !map_length, seq_length|].
    rewrite map_map. fold N. split.
    + intros i Hi. rewrite nth_error_map, (nth_error_nth' _ 0%nat) by (rewrite seq_length; exact Hi). rewrite seq_nth by exact Hi. reflexivity.
    + intros s Hs. apply in_map_iff in Hs. destruct Hs as (i & <- & _). eexists. split; [reflexivity|]. specialize (Hd i N HN). unfold N in *. lia.
Qed.
Print Assumptions C40_discrete_uniform.
(** Points between the integers have the same mass although they are never drawn. *)
Theorem C40_discrete_uniform_between_refuted :
  forall lo hi y, (lo < hi)%Z -> IZR lo <= y <= IZR hi -> du_pmf lo hi (PyFlt (XR y)) = XR (1 / IZR (hi - lo + 1)).
Proof. intros lo hi y H Hy. unfold du_pmf. cbn [val]. replace (xle (XR (IZR lo)) (XR y)) with true by (symmetry; apply xle_fin; lra). replace (xle (XR y) (XR (IZR hi))) with true by (symmetry; apply xle_fin; lra). reflexivity. Qed.
Print Assumptions C40_discrete_uniform_between_refuted.

(** ** which parameters are accepted *)
Theorem C40_inputs :
  (forall p r, val p = XR r -> bern_check_input [p] = Ok true <-> 0 <= r <= 1)
  /\ (forall n p r z, IsZ n z -> is_int n = true -> val p = XR r -> binom_check_input [n; p] = Ok true <-> (0 <= r <= 1 /\ (0 <= z)%Z))
  /\ (forall n p, is_int n = false -> binom_check_input [n; p] = Err TypeError)
  /\ (forall m r, val m = XR r -> poisson_check_input [m] = Ok true <-> 0 <= r)
  /\ (forall lo hi a b, IsZ lo a -> IsZ hi b -> is_int lo = true -> is_int hi = true -> du_check_input [lo; hi] = Ok true <-> (a < b)%Z)
  /\ (forall lo hi, is_int16 lo = false \/ is_int16 hi = false -> du_check_input [lo; hi] = Ok false).
Proof.
  split; [|split; [|split; [|split; [|split]]]].
  - intros p r Hp. unfold bern_check_input, x0, x1. cbn [length Nat.ltb Nat.leb]. rewrite Hp. split.
    + intros H. injection H as H. apply negb_true_iff, orb_false_iff in H. destruct H as (A & B). apply xlt_fin_false in A, B. lra.
    + intros H. do 2 f_equal. apply negb_true_iff, orb_false_iff. rewrite !xlt_fin_false. lra.
  - intros n p r z Hn Hi Hp. unfold binom_check_input. rewrite Hi, Hp, Hn. cbn [negb]. unfold x0, x1. split.
    + intros H. destruct (xlt (XR r) (XR 0) || xlt (XR 1) (XR r)) eqn:E; [discriminate|]. apply orb_false_iff in E. rewrite !xlt_fin_false in E.
      destruct (xlt (XR (IZR z)) (XR 0)) eqn:E2; [discriminate|]. apply xlt_fin_false in E2. split; [lra|]. now apply le_IZR.
    + intros (A & B). replace (xlt (XR r) (XR 0)) with false by (symmetry; apply xlt_fin_false; lra). replace (xlt (XR 1) (XR r)) with false by (symmetry; apply xlt_fin_false; lra).
      replace (xlt (XR (IZR z)) (XR 0)) with false by (symmetry; apply xlt_fin_false; now apply IZR_le). reflexivity.
  - intros n p H. unfold binom_check_input. now rewrite H.
  - intros m r Hm. unfold poisson_check_input, x0. cbn [length Nat.ltb Nat.leb]. rewrite Hm. split.
    + intros H. injection H as H. apply negb_true_iff, xlt_fin_false in H. exact H.
    + intros H. do 2 f_equal. apply negb_true_iff, xlt_fin_false. exact H.
  - intros lo hi a b Ha Hb Hla Hlb. unfold du_check_input. replace (is_int16 lo) with true by (destruct lo as [|w q| |]; cbn in *; try congruence; destruct (Nat.eq_dec w 16) as [->|]; [reflexivity|]; symmetry; do 17 (destruct w as [|w]; try reflexivity; try congruence); cbn in *; congruence).
    replace (is_int16 hi) with true by (destruct hi as [|w q| |]; cbn in *; try congruence; destruct (Nat.eq_dec w 16) as [->|]; [reflexivity|]; symmetry; do 17 (destruct w as [|w]; try reflexivity; try congruence); cbn in *; congruence).
    rewrite Ha, Hb. cbn [andb]. split.
    + intros H. injection H as H. apply negb_true_iff, xle_fin_false in H. now apply lt_IZR.
    + intros H. do 2 f_equal. apply negb_true_iff, xle_fin_false. now apply IZR_lt.
  - intros lo hi [H | H]; unfold du_check_input; rewrite H; [reflexivity|]. now rewrite andb_false_r.
Qed.
Print Assumptions C40_inputs.
(** NaN passes the check of a probability or a mean, and the sampler then raises. *)
Theorem C40_nan_refuted :
  bern_check_input [PyFlt XNaN] = Ok true /\ (forall n, is_int n = true -> binom_check_input [n; PyFlt XNaN] = Ok true \/ xlt (val n) x0 = true) /\ poisson_check_input [PyFlt XNaN] = Ok true
  /\ (forall u k, bern_sample u (PyFlt XNaN) k = Err ValueError) /\ (forall pois k, poisson_sample pois (PyFlt XNaN) k = Err ValueError).
Proof.
  split; [reflexivity|]. split; [|split; [reflexivity|split; reflexivity]].
  intros n H. unfold binom_check_input. rewrite H. cbn [negb val xlt orb]. destruct (xlt (val n) x0); [now right | now left].
Qed.
Print Assumptions C40_nan_refuted.
(** A stored value is accepted iff its type is an integer type; the range of the distribution is not looked at. *)
Theorem C40_outputs : forall v vs, discrete_check_output (v :: vs) = Ok true <-> is_int v = true.
Proof. intros v vs. cbn. split; [now intros [=] | now intros ->]. Qed.
Print Assumptions C40_outputs.

Example C40_case :
  Prob (PyFlt (XR (1/2))) (1/2) /\ chance (1/2) 3 1 = 3/8 /\ binom_pmf 3 (PyFlt (XR (1/2))) (PyInt 1) = Ok (XR (3/8))
  /\ binom_sample (fun i j => INR j / 4) 3 (PyFlt (XR (1/2))) 2 = Ok [[2%Z]; [2%Z]] /\ du_pmf 2 5 (PyInt 3) = XR (1/4) /\ du_check_input [PyInt 2; NpInt 64 5] = Ok true.
Proof.
  assert (Hc : chance (1/2) 3 1 = 3/8) by (rewrite chance_formula by lia; unfold C; cbn; lra).
  assert (HP : Prob (PyFlt (XR (1/2))) (1/2)) by (split; [reflexivity | lra]). split; [exact HP|]. split; [exact Hc|]. split; [|split; [|split]].
  - destruct (C40_binomial 3 (PyFlt (XR (1/2))) (1/2) ltac:(lia) HP) as (A & _). rewrite (A (PyInt 1) 1%Z eq_refl) by lia. change (Z.to_nat 3) with 3%nat. change (Z.to_nat 1) with 1%nat. now rewrite Hc.
  - unfold binom_sample, np_binomial. cbn [Z.ltb Z.compare val]. destruct (Rlt_dec (1/2) 0); [lra|]. destruct (Rlt_dec 1 (1/2)); [lra|]. unfold successes. change (Z.to_nat 3) with 3%nat. cbn [seq filter map INR].
    destruct (Rlt_dec (0/4) (1/2)); [|lra]. destruct (Rlt_dec (1/4) (1/2)); [|lra]. destruct (Rlt_dec ((1+1)/4) (1/2)); [lra|]. reflexivity.
  - destruct (C40_discrete_uniform 2 5 ltac:(lia)) as (_ & A & _). rewrite A by lia. f_equal.
  - destruct C40_inputs as (_ & _ & _ & _ & A & _). apply (A _ _ 2%Z 5%Z); try reflexivity.
Qed.
