(** C45: joint distances and likelihoods combine their parts as documented. *)
From Coq Require Import Reals Lia Lra.
From Verif Require Import M_Base M_Num M_XReal M_MMD M_Joint S_Stats S_Joint L_PMC L_Stats L_Distance L_Joint.
Open Scope R_scope.

(** The stored weights are proportional to the given ones and sum to one; without weights they are all equal. *)
Theorem C45_weights : forall (n : nat) (w : list R), length w = n -> total w <> 0 ->
  exists w', linear_init n n (Some (map XR w)) = Ok (map XR w') /\ length w' = n /\ total w' = 1 /\
             forall i x, nth_error w i = Some x -> nth_error w' i = Some (x / total w).
Proof.
  intros n w HL HT. exists (map (fun x => x / total w) w). unfold linear_init. rewrite Nat.eqb_refl. cbn [negb].
  rewrite map_length, HL, Nat.eqb_refl. cbn [negb]. rewrite (norm_fin w HT).
  split; [reflexivity|]. split; [rewrite map_length; assumption|]. split.
  - rewrite total_div. unfold Rdiv. apply Rinv_r. assumption.
  - intros i x Hx. apply (map_nth_error (fun x => x / total w)). assumption.
Qed.
Theorem C45_default_weights : forall n, (n <> 0)%nat ->
  linear_init n n None = Ok (map XR (repeat (1 / INR n) n)) /\ total (repeat (1 / INR n) n) = 1.
Proof.
  intros n Hn. unfold linear_init. rewrite Nat.eqb_refl. cbn [negb].
  assert (HI : INR n <> 0) by (apply not_0_INR; assumption).
  split.
  - rewrite repeat_map. rewrite xdiv_fin by assumption. reflexivity.
  - rewrite total_repeat. field. assumption.
Qed.
(** A joint distance is the weighted average of the component distances, each computed on the two data sets of its own
    root model; with no weights it is their mean. *)
Theorem C45_distance : forall D (cs : list (D -> D -> res xr)) (w v : list R) l1 l2,
  length w = length cs -> total w <> 0 -> length l1 = length l2 -> Values cs l1 l2 v ->
  exists ws, linear_init (length cs) (length cs) (Some (map XR w)) = Ok ws /\
             linear_distance cs ws (DList l1) (DList l2) = Ok (XR (waverage w v)).
Proof.
  intros D cs w v l1 l2 HW HT HL HV. exists (map XR (map (fun x => x / total w) w)). split.
  - unfold linear_init. rewrite Nat.eqb_refl. cbn [negb]. rewrite map_length, HW, Nat.eqb_refl. cbn [negb].
    rewrite (norm_fin w HT). reflexivity.
  - rewrite (linear_spec D cs _ v); [|rewrite map_length; assumption|assumption|assumption].
    rewrite dot_div. reflexivity.
Qed.
Theorem C45_distance_default : forall D (cs : list (D -> D -> res xr)) (v : list R) l1 l2,
  (length cs <> 0)%nat -> length l1 = length l2 -> Values cs l1 l2 v ->
  exists ws, linear_init (length cs) (length cs) None = Ok ws /\
             linear_distance cs ws (DList l1) (DList l2) = Ok (XR (average v)).
Proof.
  intros D cs v l1 l2 HN HL HV. destruct (C45_default_weights (length cs) HN) as [E _]. eexists. split; [exact E|].
  rewrite (linear_spec D cs _ v); [|rewrite repeat_length; reflexivity|assumption|assumption].
  rewrite dot_const by (destruct HV; assumption). unfold average. destruct HV as [HV _]. rewrite HV.
  do 2 f_equal. unfold Rdiv. ring.
Qed.
(** One model: the joint distance is the component's distance, whatever the weight. *)
Theorem C45_single : forall D (c : D -> D -> res xr) (w x : R) a b, w <> 0 -> c a b = Ok (XR x) ->
  exists ws, linear_init 1 1 (Some [XR w]) = Ok ws /\ linear_distance [c] ws (DList [a]) (DList [b]) = Ok (XR x).
Proof.
  intros D c w x a b Hw Hc.
  destruct (C45_distance D [c] [w] [x] [a] [b] eq_refl) as (ws & E1 & E2).
  - cbn. rewrite Rplus_0_r. assumption.
  - reflexivity.
  - split; [reflexivity|]. intros i c' Hi. destruct i as [|i]; [|destruct i; discriminate].
    injection Hi as <-. exists a, b, x. auto.
  - exists ws. split; [exact E1|]. rewrite E2. do 2 f_equal. unfold waverage. cbn. field. assumption.
Qed.
(** It increases with every component, and is at most the declared maximum if every component is. *)
Theorem C45_monotone : forall D (cs cs' : list (D -> D -> res xr)) (w v v' : list R) l1 l2 l1' l2' ws y y',
  length cs = length w -> length cs' = length w -> Forall (fun x => 0 <= x) w -> 0 < total w ->
  length l1 = length l2 -> length l1' = length l2' -> Values cs l1 l2 v -> Values cs' l1' l2' v' -> Forall2 Rle v v' ->
  linear_init (length w) (length w) (Some (map XR w)) = Ok ws ->
  linear_distance cs ws (DList l1) (DList l2) = Ok (XR y) -> linear_distance cs' ws (DList l1') (DList l2') = Ok (XR y') -> y <= y'.
Proof.
  intros D cs cs' w v v' l1 l2 l1' l2' ws y y' H1 H2 HW HT HL HL' HV HV' HF HI E E'.
  assert (HT' : total w <> 0) by lra.
  destruct (C45_distance D cs w v l1 l2) as (ws1 & I1 & D1); [congruence|assumption|assumption|assumption|].
  destruct (C45_distance D cs' w v' l1' l2') as (ws2 & I2 & D2); [congruence|assumption|assumption|assumption|].
  rewrite H1 in I1. rewrite H2 in I2. assert (ws1 = ws) by congruence. assert (ws2 = ws) by congruence. subst ws1 ws2.
  assert (Y : y = waverage w v) by congruence. assert (Y' : y' = waverage w v') by congruence. subst.
  unfold waverage, Rdiv. apply Rmult_le_compat_r; [left; apply Rinv_0_lt_compat; assumption|]. apply dot_le; assumption.
Qed.
Theorem C45_max : forall (w m : list R) , length w = length m -> total w <> 0 ->
  exists ws, linear_init (length m) (length m) (Some (map XR w)) = Ok ws /\ linear_max (map XR m) ws = Ok (XR (waverage w m)).
Proof.
  intros w m HL HT. exists (map XR (map (fun x => x / total w) w)). split.
  - unfold linear_init. rewrite Nat.eqb_refl. cbn [negb]. rewrite map_length, HL, Nat.eqb_refl. cbn [negb].
    rewrite (norm_fin w HT). reflexivity.
  - unfold linear_max. rewrite max_loop_fin by (rewrite map_length; assumption). rewrite dot_div. do 2 f_equal. unfold waverage. lra.
Qed.
Theorem C45_max_bounds : forall D (cs : list (D -> D -> res xr)) (w m v : list R) l1 l2 ws y M,
  length cs = length w -> length m = length w -> Forall (fun x => 0 <= x) w -> 0 < total w ->
  length l1 = length l2 -> Values cs l1 l2 v -> Forall2 Rle v m ->
  linear_init (length w) (length w) (Some (map XR w)) = Ok ws ->
  linear_distance cs ws (DList l1) (DList l2) = Ok (XR y) -> linear_max (map XR m) ws = Ok (XR M) -> y <= M.
Proof.
  intros D cs w m v l1 l2 ws y M H1 H2 HW HT HL HV HF HI E EM.
  assert (HT' : total w <> 0) by lra.
  destruct (C45_distance D cs w v l1 l2) as (ws1 & I1 & D1); [congruence|assumption|assumption|assumption|].
  destruct (C45_max w m) as (ws2 & I2 & D2); [congruence|assumption|].
  rewrite H1 in I1. rewrite H2 in I2. assert (ws1 = ws) by congruence. assert (ws2 = ws) by congruence. subst ws1 ws2.
  assert (Y : y = waverage w v) by congruence. assert (Y' : M = waverage w m) by congruence. subst.
  unfold waverage, Rdiv. apply Rmult_le_compat_r; [left; apply Rinv_0_lt_compat; assumption|]. apply dot_le; assumption.
Qed.
Lemma max_inf_keep : forall w m, length m = length w -> Forall (fun x => 0 < x) w ->
  Forall (fun x => x = XInf \/ exists r, x = XR r) m -> max_loop m (map XR w) XInf = Ok XInf.
Proof.
  induction w as [|a w IH]; intros m HL HW HM; destruct m as [|x m]; try discriminate; [reflexivity|].
  inversion HW as [|? ? Ha Hw]; subst. inversion HM as [|? ? Hx Hm]; subst.
  cbn [map max_loop]. destruct Hx as [-> | [r ->]].
  - cbn. rewrite (rsign_pos a Ha). cbn. apply IH; [cbn in HL; lia|assumption|assumption].
  - cbn. apply IH; [cbn in HL; lia|assumption|assumption].
Qed.
Lemma max_inf : forall w m acc, length m = length w -> Forall (fun x => 0 < x) w ->
  Forall (fun x => x = XInf \/ exists r, x = XR r) m -> In XInf m -> max_loop m (map XR w) (XR acc) = Ok XInf.
Proof.
  induction w as [|a w IH]; intros m acc HL HW HM HI; destruct m as [|x m]; try discriminate; [destruct HI|].
  inversion HW as [|? ? Ha Hw]; subst. inversion HM as [|? ? Hx Hm]; subst.
  cbn [map max_loop]. destruct Hx as [-> | [r ->]].
  - cbn. rewrite (rsign_pos a Ha). cbn. apply max_inf_keep; [cbn in HL; lia|assumption|assumption].
  - cbn. apply IH; [cbn in HL; lia|assumption|assumption|]. destruct HI as [HI|HI]; [discriminate|assumption].
Qed.
(** With positive weights the maximum is infinite as soon as one component's is. *)
Theorem C45_max_infinite : forall (w : list R) (m : list xr), length m = length w -> Forall (fun x => 0 < x) w ->
  Forall (fun x => x = XInf \/ exists r, x = XR r) m -> In XInf m ->
  exists ws, linear_init (length m) (length m) (Some (map XR w)) = Ok ws /\ linear_max m ws = Ok XInf.
Proof.
  intros w m HL HW HM HI.
  assert (HT : 0 < total w).
  { destruct w as [|a w]; [destruct m; [destruct HI|discriminate]|]. rewrite total_cons. inversion HW as [|? ? Ha Hw]; subst.
    assert (0 <= total w) by (apply total_nonneg; eapply Forall_impl; [|exact Hw]; intros; cbn in *; lra). lra. }
  assert (HT' : total w <> 0) by lra.
  exists (map XR (map (fun x => x / total w) w)). split.
  - unfold linear_init. rewrite Nat.eqb_refl. cbn [negb]. rewrite map_length, HL, Nat.eqb_refl. cbn [negb].
    rewrite (norm_fin w HT'). reflexivity.
  - apply max_inf; [rewrite map_length; assumption| |assumption|assumption].
    apply Forall_map. eapply Forall_impl; [|exact HW]. intros x Hx. cbn in *. apply Rdiv_lt_0_compat; assumption.
Qed.
(** Approximate likelihoods: the product of the likelihoods, and the exponential of the sum of the log-likelihoods. *)
Theorem C45_product : forall D (cs : list (D -> D -> res xr)) v l1 l2, length l1 = length l2 -> Values cs l1 l2 v ->
  product_likelihood cs (DList l1) (DList l2) = Ok (XR (product v)).
Proof.
  intros D cs v l1 l2 HL HV. unfold product_likelihood. rewrite check_ok by assumption. cbn [rthen fst snd].
  pose proof (accumulate_spec D (fun acc (_ : nat) x => Ok (xmul acc x)) (fun r _ x => r * x) cs l1 l2 v [] [] 1 eq_refl) as A.
  cbn [app length] in A. rewrite A; [| |assumption].
  - rewrite fold_times. do 2 f_equal. lra.
  - intros r i x _. reflexivity.
Qed.
Theorem C45_sum : forall D (cs : list (D -> D -> res xr)) v l1 l2, length l1 = length l2 -> Values cs l1 l2 v ->
  sum_loglikelihood cs (DList l1) (DList l2) = Ok (XR (total v)) /\
  sum_likelihood cs (DList l1) (DList l2) = Ok (XR (product (map exp v))).
Proof.
  intros D cs v l1 l2 HL HV.
  assert (E : sum_loglikelihood cs (DList l1) (DList l2) = Ok (XR (total v))).
  { unfold sum_loglikelihood. rewrite check_ok by assumption. cbn [rthen fst snd].
    pose proof (accumulate_spec D (fun acc (_ : nat) x => Ok (xadd acc x)) (fun r _ x => r + x) cs l1 l2 v [] [] 0 eq_refl) as A.
    cbn [app length] in A. rewrite A; [| |assumption].
    - rewrite fold_plus'. do 2 f_equal. lra.
    - intros r i x _. reflexivity. }
  split; [exact E|]. unfold sum_likelihood. rewrite E. cbn [rthen xexp]. rewrite exp_total. reflexivity.
Qed.
(** Hence the two combinations agree on components with [likelihood = exp(loglikelihood)]. *)
Theorem C45_agree : forall D (lik loglik : list (D -> D -> res xr)) v l1 l2, length l1 = length l2 ->
  Values loglik l1 l2 v -> Values lik l1 l2 (map exp v) ->
  sum_likelihood loglik (DList l1) (DList l2) = product_likelihood lik (DList l1) (DList l2).
Proof.
  intros D lik loglik v l1 l2 HL HV HV'. rewrite (C45_product D lik _ l1 l2 HL HV').
  apply C45_sum; assumption.
Qed.
(** Refused: numbers of models, components and weights that differ, arguments that are not lists, and two arguments with
    different numbers of data sets. *)
Theorem C45_refused : forall D (cs : list (D -> D -> res xr)) ws (d1 d2 : data D) n k w,
  (n <> k -> linear_init n k w = Err ValueError /\ approx_init n k = Err ValueError) /\
  (forall l, w = Some l -> length l <> k -> linear_init n k w = Err ValueError) /\
  (d1 = DOther \/ d2 = DOther ->
     linear_distance cs ws d1 d2 = Err TypeError /\ product_likelihood cs d1 d2 = Err TypeError /\
     sum_loglikelihood cs d1 d2 = Err TypeError /\ sum_likelihood cs d1 d2 = Err TypeError) /\
  (forall l1 l2, d1 = DList l1 -> d2 = DList l2 -> length l1 <> length l2 ->
     linear_distance cs ws d1 d2 = Err ValueError /\ product_likelihood cs d1 d2 = Err ValueError /\
     sum_loglikelihood cs d1 d2 = Err ValueError /\ sum_likelihood cs d1 d2 = Err ValueError).
Proof.
  intros D cs ws d1 d2 n k w. split; [|split; [|split]].
  - intros H. apply Nat.eqb_neq in H. unfold linear_init, approx_init. rewrite H. split; reflexivity.
  - intros l -> H. unfold linear_init. destruct (n =? k)%nat; [|reflexivity].
    assert (E : (k =? length l)%nat = false) by (apply Nat.eqb_neq; congruence). cbn [negb]. rewrite E. reflexivity.
  - intros H. assert (E : check_data d1 d2 = Err TypeError) by (destruct H as [-> | ->]; [reflexivity|destruct d1; reflexivity]).
    unfold sum_likelihood, linear_distance, product_likelihood, sum_loglikelihood. rewrite E. auto.
  - intros l1 l2 -> -> H. apply Nat.eqb_neq in H.
    assert (E : check_data (DList l1) (DList l2) = Err ValueError) by (cbn; rewrite H; reflexivity).
    unfold sum_likelihood, linear_distance, product_likelihood, sum_loglikelihood. rewrite E. auto.
Qed.
(** Two arguments of the same length but with fewer data sets than components fail with another error, ... *)
Theorem C45_fewer : forall D (cs : list (D -> D -> res xr)) ws l1 l2,
  length l1 = length l2 -> (length l1 < length cs)%nat -> length ws = length cs ->
  (forall i c a b, nth_error cs i = Some c -> nth_error l1 i = Some a -> nth_error l2 i = Some b -> exists x, c a b = Ok x) ->
  linear_distance cs ws (DList l1) (DList l2) = Err IndexError /\ product_likelihood cs (DList l1) (DList l2) = Err IndexError /\
  sum_loglikelihood cs (DList l1) (DList l2) = Err IndexError.
Proof.
  intros D cs ws l1 l2 HL HS HW HC. unfold linear_distance, product_likelihood, sum_loglikelihood.
  rewrite check_ok by assumption. cbn [rthen fst snd].
  split; [|split].
  - apply (accumulate_short D (weighted ws) cs l1 l2 [] []); try assumption; [reflexivity|].
    intros r i x Hi. cbn in Hi. unfold weighted. destruct (nth_error ws i) as [y|] eqn:E; [eexists; reflexivity|].
    apply nth_error_None in E. lia.
  - apply (accumulate_short D _ cs l1 l2 [] []); try assumption; [reflexivity|]. intros r i x Hi. eexists. reflexivity.
  - apply (accumulate_short D _ cs l1 l2 [] []); try assumption; [reflexivity|]. intros r i x Hi. eexists. reflexivity.
Qed.
(** ... and surplus data sets are ignored without an error, so wrong numbers of parts are not always refused. *)
Theorem C45_surplus_refuted :
  ~ (forall D (cs : list (D -> D -> res xr)) ws l1 l2, length l1 <> length cs -> exists e, linear_distance cs ws (DList l1) (DList l2) = Err e).
Proof.
  intros H. destruct (H nat [fun _ _ => Ok (XR 1)] [XR 1] [0; 1]%nat [0; 1]%nat) as [e E]; [discriminate|].
  cbn in E. discriminate.
Qed.
(** Weights with sum zero are not refused: every stored weight is infinite or not a number. *)
Theorem C45_zero_sum_refuted :
  ~ (forall n (w : list R) ws, linear_init n n (Some (map XR w)) = Ok ws -> Forall (fun x => exists r, x = XR r) ws).
Proof.
  intros H. specialize (H 2%nat [1; -1]).
  assert (E : linear_init 2 2 (Some (map XR [1; -1])) = Ok [XInf; XNInf]).
  { unfold linear_init. cbn [Nat.eqb negb length map fold_left xadd].
    replace (0 + 1 + -1) with 0 by lra. unfold xdiv. rewrite rsign_zero.
    rewrite (rsign_pos 1) by lra. rewrite (rsign_neg (-1)) by lra. reflexivity. }
  specialize (H _ E). inversion H as [|? ? [r Hr] _]. discriminate.
Qed.
(** A zero weight on a component with infinite maximum makes the joint maximum undefined. *)
Theorem C45_zero_weight_max_refuted :
  ~ (forall n w ms ws v, Forall (fun x => 0 <= x) w -> 0 < total w -> length ms = n ->
       linear_init n n (Some (map XR w)) = Ok ws -> linear_max ms ws = Ok v -> v <> XNaN).
Proof.
  intros H. apply (H 2%nat [1; 0] [XR 1; XInf] [XR 1; XR 0] XNaN).
  - repeat constructor; lra.
  - cbn. lra.
  - reflexivity.
  - unfold linear_init. cbn [Nat.eqb negb length map fold_left xadd]. replace (0 + 1 + 0) with 1 by lra.
    rewrite !xdiv_fin by lra. do 3 f_equal; [field|f_equal; f_equal; field].
  - unfold linear_max. cbn [max_loop xmul xadd xsgn]. rewrite rsign_zero. reflexivity.
  - reflexivity.
Qed.
Print Assumptions C45_distance.
Print Assumptions C45_agree.

(** Two components on two data sets, with weights 1 and 3: values 2 and 6 give 5, maxima 4 and 8 give 7. *)
Example C45_example : forall (f := fun a b : R => Ok (XR (a + b))) (g := fun a b : R => Ok (XR (a * b))),
  Values [f; g] [1; 2] [1; 3] [2; 6] /\ waverage [1; 3] [2; 6] = 5 /\ waverage [1; 3] [4; 8] = 7 /\
  Forall (fun x => 0 <= x) [1; 3] /\ total [1; 3] = 4 /\ Forall2 Rle [2; 6] [4; 8] /\ product [2; 6] = 12.
Proof.
  intros f g. split; [|split; [|split; [|split; [|split; [|split]]]]].
  - split; [reflexivity|]. intros [|[|i]] c Hc; cbn in Hc; try (destruct i; discriminate); injection Hc as <-.
    + exists 1, 1, 2. split; [reflexivity|]. split; [reflexivity|]. split; [reflexivity|]. unfold f. do 2 f_equal; try lra.
    + exists 2, 3, 6. split; [reflexivity|]. split; [reflexivity|]. split; [reflexivity|]. unfold g. do 2 f_equal; try lra.
  - unfold waverage. cbn. field.
  - unfold waverage. cbn. field.
  - repeat constructor; lra.
  - cbn. lra.
  - repeat constructor; lra.
  - cbn. lra.
Qed.

Print Assumptions C45_weights.
Print Assumptions C45_default_weights.
Print Assumptions C45_distance_default.
Print Assumptions C45_single.
Print Assumptions C45_monotone.
Print Assumptions C45_max.
Print Assumptions C45_max_bounds.
Print Assumptions C45_max_infinite.
Print Assumptions C45_product.
Print Assumptions C45_sum.
Print Assumptions C45_refused.
Print Assumptions C45_fewer.
Print Assumptions C45_surplus_refuted.
Print Assumptions C45_zero_sum_refuted.
Print Assumptions C45_zero_weight_max_refuted.
