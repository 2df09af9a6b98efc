(** C91: what the population that an iteration of APMCABC records stands for: the prior. *)
From Coq Require Import Reals Lra Lia Qreals.
From Verif Require Import M_Base M_Num L_Num M_Infer L_Infer M_PMCABC M_RSMCABC M_APMCABC M_XReal M_Stats L_PMC S_Stats L_Stats L_Distance L_PosDef L_Histogram S_Law P_Law L_Law P_Law3 P_Law4 L_Gen L_Series S_Consist L_LLN L_Workers P_Consist2.
Open Scope R_scope.

Lemma nonempty {X} (l : list X) : l <> [] -> exists x, In x l.
Proof. destruct l as [|x l]; [contradiction|]. exists x. left. reflexivity. Qed.
(** averages of n draws with positive weights, together with a fixed part of weight 1 *)
Section Anchored.
Variable A : Type.
Variable outs : list A.
Variable p : A -> R.
Hypothesis law : Law outs p.
Theorem anchored_law (u f : A -> R) n e m x D : (0 < n)%nat -> 0 < e -> (forall a, 0 < u a) -> 0 < expect outs p u -> m = expect outs p (fun a => u a * f a) / expect outs p u ->
  Rabs (x - m) <= D -> 4 * D <= e * (INR n * expect outs p u) ->
  prob outs p n (fun l => far e ((x + total (map (fun a => u a * f a) l)) / (1 + total (map u l))) m)
  <= 4 * (variance outs p u + 4 * expect outs p (fun a => (u a * (f a - m)) ^ 2) / e ^ 2) / (INR n * expect outs p u ^ 2).
Proof.
  intros Hn He Hu HU Hm Hx HD. assert (HN : 0 < INR n) by (apply lt_0_INR; lia). set (U := expect outs p u) in *. set (g := fun a => u a * (f a - m)).
  assert (Hg : expect outs p g = 0).
  { unfold g. rewrite (expect_ext _ _ _ _ (fun a => u a * f a + - m * u a)) by (intros; ring). rewrite expect_plus, expect_scale. fold U. rewrite Hm. field. lra. }
  assert (NU : 0 < INR n * U) by (apply Rmult_lt_0_compat; assumption).
  pose (c1 := INR n * U / 2). pose (c2 := e * (INR n * U) / 4). assert (H1 : 0 < c1) by (unfold c1; lra). assert (H2 : 0 < c2) by (unfold c2; pose proof (Rmult_lt_0_compat _ _ He NU); lra).
  apply Rle_trans with (prob outs p n (fun l => (if Rlt_dec c1 (Rabs (total (map (fun a => u a - U) l))) then true else false) || (if Rlt_dec c2 (Rabs (total (map g l))) then true else false))).
  - apply Rle_trans with (prob outs p n (fun l => (length l =? n)%nat && far e ((x + total (map (fun a => u a * f a) l)) / (1 + total (map u l))) m)); [right; apply prob_ext; intros l ->; rewrite Nat.eqb_refl; reflexivity|].
    apply (prob_le A outs p law). intros l Hl. apply andb_true_iff in Hl. destruct Hl as [Hl Hf]. apply Nat.eqb_eq in Hl. unfold far in Hf. destruct (Rlt_dec e _) as [Hlt|]; [|discriminate]. clear Hf.
    destruct (Rlt_dec c1 _) as [|N1]; [reflexivity|]. destruct (Rlt_dec c2 _) as [|N2]; [reflexivity|]. exfalso.
    assert (Sp : c1 <= total (map u l)).
    { rewrite total_minus, total_const_map, Hl in N1. apply Rnot_lt_le in N1. assert (X : - c1 <= total (map u l) - INR n * U) by (pose proof (Rle_abs (- (total (map u l) - INR n * U))) as Y; rewrite Rabs_Ropp in Y; lra). unfold c1 in *. lra. }
    set (S := total (map u l)) in *. assert (S0 : 0 < S) by lra.
    assert (E : total (map g l) = (1 + S) * ((x + total (map (fun a => u a * f a) l)) / (1 + S) - m) - (x - m)).
    { unfold g. rewrite (total_ext _ (fun a => u a * f a - m * u a)) by (intros; ring). rewrite total_minus, total_scale. fold S. field. lra. }
    set (y := (x + total (map (fun a => u a * f a) l)) / (1 + S) - m) in *. apply N2. rewrite E.
    apply Rlt_le_trans with (Rabs ((1 + S) * y) - Rabs (x - m)); [|apply Rabs_triang_inv]. rewrite Rabs_mult, (Rabs_right (1 + S)) by lra.
    assert (Y : c1 * e < (1 + S) * Rabs y). { apply Rle_lt_trans with ((1 + S) * e); [apply Rmult_le_compat_r; lra|]. apply Rmult_lt_compat_l; [lra|assumption]. }
    unfold c1, c2 in *. lra.
  - eapply Rle_trans; [apply (prob_or A outs p law)|]. eapply Rle_trans; [apply Rplus_le_compat; [apply (chebyshev A outs p law (fun a => u a - U) n c1 (centre A outs p law u) H1)|apply (chebyshev A outs p law g n c2 Hg H2)]|].
    right. unfold variance, c1, c2. fold U. change (fun a => (u a * (f a - m)) ^ 2) with (fun a => g a ^ 2). field. split; [lra|]. split; lra.
Qed.
End Anchored.

Section Population.
Variables A Theta Y : Type.
Variable teq : forall x y : Theta, {x = y} + {x <> y}.
Variable outs : list A.
Variable p : A -> R.
Hypothesis law : Law outs p.
Notation pop := (pop Theta).
Variable setp : Theta -> Theta -> bool * Theta.
Variable pdfv : Theta -> Theta -> num.
Variable kupd : pop -> nat -> list A -> list A * Theta.
Variable kpdf : pop -> Theta -> Theta -> num.
Variable prior : list A -> list A * Theta.
Variable simc : Theta -> list A -> list A * option Y.
Variable dist : Y -> num.
Variable choice : nat -> list num -> list A -> res (list A * nat).
(** as for C76; q is the retained population, of m particles *)
Variable q : pop.
Variable m : nat.
Variable row : nat -> Theta.
Variable w : nat -> Q.
Variable kern : nat -> Theta -> Q.
Variable pi : Theta -> Q.
Variable pick : A -> nat.
Variable prop : nat -> A -> Theta.
Variable dat : Theta -> A -> Y.
Variable Ts : list Theta.
Hypothesis set_all : forall th cur, setp th cur = (true, th).
Hypothesis density : forall th cur, pdfv th cur = Fin (pi th).
Hypothesis density_nonneg : forall th, (0 <= pi th)%Q.
Hypothesis choice_draw : forall a l, choice m (p_w q) (a :: l) = Ok (l, pick a).
Hypothesis kupd_draw : forall i a l, kupd q i (a :: l) = (l, prop i a).
Hypothesis kupd_end : forall i, exists th, kupd q i [] = ([], th) /\ pi th = 0%Q.
Hypothesis sim_draw : forall th a l, simc th (a :: l) = (l, Some (dat th a)).
Hypothesis sim_end : forall th, simc th [] = ([], None).
Hypothesis rows_ok : p_rows q = map row (seq 0 m).
Hypothesis weights_ok : p_w q = map (fun i => Fin (w i)) (seq 0 m).
Hypothesis kpdf_ok : forall i th, (i < m)%nat -> kpdf q (row i) th = Fin (kern i th).
Hypothesis pick_range : forall a, In a outs -> (pick a < m)%nat.
Hypothesis pick_law : forall i, (i < m)%nat -> chance outs p (fun a => if Nat.eq_dec (pick a) i then true else false) = Q2R (w i).
Hypothesis prop_law : forall i th, (i < m)%nat -> chance outs p (fun a => if teq (prop i a) th then true else false) = Q2R (kern i th).
Hypothesis Ts_distinct : NoDup Ts.
Hypothesis Ts_density : forall th, In th Ts <-> ~ (pi th == 0)%Q.
Notation mass := (mass Theta kern Ts).
Notation mixture := (mixture Theta m w kern).
Notation truncated := (truncated Theta m w kern Ts).
Hypothesis mass_pos : forall i, (i < m)%nat -> 0 < mass i.
Hypothesis mixture_pos : forall th, In th Ts -> 0 < mixture th.
Notation zero := (zero Theta pi).
Notation u := (u Theta teq m w kern pi Ts).
Notation wq := (wq Theta setp pdfv kpdf q m).

(** a worker with the draws l: parameters, distance, weight, number of simulations; what it leaves in the graph *)
Definition W (k : nat) (l : list A) (c : Theta) : res (Theta * num * num * nat * Theta) :=
  ap_accept Theta (list A) Y setp pdfv kupd kpdf prior simc dist (fun _ => l) (fun r => r) choice (Some q) (S k) 0 c.
(** an outcome: the proposed parameters and the draw of the simulation *)
Definition out (b : Theta * A) : Theta * num * num * nat * Theta := let '(th, a) := b in (th, dist (dat th a), Fin (wq th), 1%nat, th).
Definition pairs : list (Theta * A) := list_prod Ts outs.
Definition mu2 (b : Theta * A) : R := truncated (fst b) * p (snd b).

Lemma len_w : length (p_w q) = m. Proof. rewrite weights_ok, map_length, seq_length. reflexivity. Qed.
Lemma inside th : In th Ts <-> zero th = false.
Proof. rewrite Ts_density. unfold L_Law.zero. destruct (Qeq_bool (pi th) 0) eqn:E; [apply Qeq_bool_iff in E; split; [contradiction|discriminate]|]. split; [reflexivity|]. intros _ X. apply Qeq_bool_iff in X. congruence. Qed.
Lemma weight_here th : In th Ts -> ndiv (nmul (Fin 1) (Fin (pi th))) (nsum (map (fun wr => nmul (fst wr) (kpdf q (snd wr) th)) (combine (p_w q) (p_rows q)))) = Fin (wq th).
Proof.
  intros Hth. destruct (weight_fin Theta setp pdfv kpdf q m row w kern pi Ts set_all density rows_ok weights_ok kpdf_ok mixture_pos th th Hth) as (c' & E). unfold calculate_weight, pdf_of_prior in E. rewrite set_all, density in E. cbn [snd] in E.
  assert (L1 : length (p_rows q) = m) by (rewrite rows_ok, map_length, seq_length; reflexivity). rewrite L1, len_w, Nat.ltb_irrefl, Nat.eqb_refl in E. cbn [negb] in E. rewrite (firstn_all2 (p_rows q)) in E by lia. congruence.
Qed.

Section Value.
Variable G : Theta * num * num * nat * Theta -> R.
Definition at_sim (th : Theta) : R := expect outs p (fun a => G (out (th, a))).
(** the chance that k draws suffice to propose th from sample i and to simulate *)
Fixpoint reach (k i : nat) (th : Theta) : R :=
  match k with O => 0 | S k' => expect outs p (fun a => if zero (prop i a) then reach k' i th else match k' with O => 0 | _ => if teq (prop i a) th then 1 else 0 end) end.
Definition rest (th cur1 : Theta) (l : list A) : res (Theta * num * num * nat * Theta) :=
  let '(r3, y) := simc cur1 l in match y with None => Err TypeError | Some y =>
  let '(prior_prob, cur2) := pdf_of_prior Theta setp pdfv th cur1 in
  Ok (cur2, dist y, ndiv (nmul (Fin 1) prior_prob) (nsum (map (fun wr => nmul (fst wr) (kpdf q (snd wr) th)) (combine (p_w q) (p_rows q)))), 1%nat, cur2) end.
Definition value (r : res (Theta * num * num * nat * Theta)) : R := match r with Ok x => G x | Err _ => 0 end.
Lemma rest_mean k th : In th Ts -> mean outs p k (fun l => value (rest th th l)) = match k with O => 0 | _ => at_sim th end.
Proof.
  intros Hth. destruct k as [|k]; cbn [mean]; [unfold rest; rewrite sim_end; reflexivity|]. apply expect_ext. intros a _. transitivity (mean outs p k (fun _ => G (out (th, a)))); [|apply (mean_const _ outs p law)].
  apply mean_ext. intros l _. unfold rest. rewrite sim_draw. unfold pdf_of_prior. rewrite set_all, density. cbn [snd]. rewrite (weight_here th Hth). reflexivity.
Qed.
Definition after (f i : nat) (cur : Theta) (l : list A) : res (Theta * num * num * nat * Theta) :=
  match propose Theta (list A) pop setp kupd pdfv f q i cur l with Err e => Err e | Ok (cur1, r2, th) => rest th cur1 r2 end.
Lemma after_mean k : forall f i cur, (k < f)%nat -> mean outs p k (fun l => value (after f i cur l)) = total (map (fun th => reach k i th * at_sim th) Ts).
Proof.
  induction k as [|k IH]; intros f i cur Hf.
  - cbn [mean reach]. rewrite (total_ext _ (fun _ => 0)) by (intros; ring). rewrite total_const. unfold after. destruct (propose_end A Theta setp pdfv kupd q pi set_all density kupd_end f i cur) as (e & ->). cbn [value]. ring.
  - cbn [mean]. destruct f as [|f]; [lia|].
    transitivity (expect outs p (fun a => total (map (fun th => (if zero (prop i a) then reach k i th else match k with O => 0 | _ => if teq (prop i a) th then 1 else 0 end) * at_sim th) Ts))).
    + apply expect_ext. intros a _. destruct (zero (prop i a)) eqn:Ez.
      * rewrite <- (IH f i (prop i a)) by lia. apply mean_ext. intros l _. unfold after. rewrite (propose_draw A Theta setp pdfv kupd q pi prop set_all density kupd_draw f i cur a l), Ez. reflexivity.
      * assert (Hi : In (prop i a) Ts) by (apply inside; exact Ez). rewrite (mean_ext _ _ _ k _ (fun l => value (rest (prop i a) (prop i a) l))).
        2:{ intros l _. unfold after. rewrite (propose_draw A Theta setp pdfv kupd q pi prop set_all density kupd_draw f i cur a l), Ez. reflexivity. }
        rewrite (rest_mean k (prop i a) Hi). destruct k as [|k]; [rewrite (total_ext _ (fun _ => 0)) by (intros; ring); rewrite total_const; ring|].
        symmetry. exact (pick_out Theta teq Ts Ts_distinct (prop i a) at_sim Hi).
    + unfold expect. rewrite (total_ext _ (fun a => total (map (fun th => p a * ((if zero (prop i a) then reach k i th else match k with O => 0 | _ => if teq (prop i a) th then 1 else 0 end) * at_sim th)) Ts))) by (intros; rewrite total_scale; reflexivity).
      rewrite total_swap. apply total_ext. intros th _. cbn [reach]. unfold expect. rewrite (Rmult_comm (total _)), <- total_scale. apply total_ext. intros a _. ring.
Qed.
Lemma W_mean k c : mean outs p (S k) (fun l => value (W (S k) l c)) = total (map (fun i => Q2R (w i) * total (map (fun th => reach k i th * at_sim th) Ts)) (seq 0 m)).
Proof.
  pose (V := fun i => total (map (fun th => reach k i th * at_sim th) Ts)). cbn [mean]. transitivity (expect outs p (fun a => V (pick a))).
  - apply expect_ext. intros a _. unfold V. rewrite <- (after_mean k (S (S k)) (pick a) c) by lia. apply mean_ext. intros l _. unfold W, ap_accept, after, rest. rewrite len_w, choice_draw. destruct (propose _ _ _ _ _ _ _ _ _ _ _) as [[[c1 r2] th]|]; reflexivity.
  - rewrite (group outs p Nat.eq_dec (seq 0 m) pick V (seq_NoDup m 0)) by (intros a Ha; left; apply in_seq; specialize (pick_range a Ha); lia). apply total_ext. intros i Hi. apply in_seq in Hi. rewrite pick_law by lia. reflexivity.
Qed.
End Value.
Lemma lost_range i : (i < m)%nat -> 0 <= 1 - mass i < 1.
Proof.
  intros Hi. pose proof (mass_pos i Hi). rewrite <- (keeps_mass A Theta teq outs p m kern pi prop Ts prop_law Ts_distinct Ts_density i Hi) in *. pose proof (chance_range _ outs p (fun a => negb (zero (prop i a))) law) as H0. unfold keeps. fold (keeps A Theta outs p pi prop i) in *. unfold keeps in *. lra.
Qed.
Lemma reach_S k i th : (i < m)%nat -> In th Ts -> reach (S (S k)) i th = (1 - mass i) * reach (S k) i th + Q2R (kern i th).
Proof.
  intros Hi Hth. change (reach (S (S k)) i th) with (expect outs p (fun a => if zero (prop i a) then reach (S k) i th else if teq (prop i a) th then 1 else 0)).
  rewrite <- (keeps_mass A Theta teq outs p m kern pi prop Ts prop_law Ts_distinct Ts_density i Hi). unfold keeps. rewrite <- (chance_neg _ _ _ _ law), <- (prop_law i th Hi). unfold chance. rewrite (Rmult_comm _ (reach (S k) i th)), <- expect_scale, <- expect_plus.
  apply expect_ext. intros a _. destruct (zero (prop i a)) eqn:Ez; cbn [negb]; destruct (teq (prop i a) th) as [E|E]; try ring. exfalso. apply inside in Hth. congruence.
Qed.
Lemma reach_form k i th : (i < m)%nat -> In th Ts -> reach (S k) i th = (1 - (1 - mass i) ^ k) * (Q2R (kern i th) / mass i).
Proof.
  intros Hi Hth. induction k as [|k IH].
  - cbn [reach pow]. rewrite (expect_ext _ _ _ _ (fun _ => 0)) by (intros a _; destruct (zero _); reflexivity). rewrite (expect_const _ _ _ _ law). ring.
  - rewrite (reach_S k i th Hi Hth), IH. pose proof (mass_pos i Hi). cbn [pow]. field. lra.
Qed.
Lemma reach_limit i th : (i < m)%nat -> In th Ts -> Un_cv (fun k => reach k i th) (Q2R (kern i th) / mass i).
Proof.
  intros Hi Hth. apply cv_unshift. apply (cv_ext (fun k => (1 - (1 - mass i) ^ k) * (Q2R (kern i th) / mass i))); [intros k; symmetry; apply reach_form; assumption|].
  replace (Q2R (kern i th) / mass i) with ((1 - 0) * (Q2R (kern i th) / mass i)) at 1 by ring. apply CV_mult; [|apply cv_const]. apply CV_minus; [apply cv_const|].
  intros e He. pose proof (lost_range i Hi) as L. destruct (pow_lt_1_zero (1 - mass i) ltac:(rewrite Rabs_right; lra) e He) as (N & HN). exists N. intros k Hk. unfold R_dist. rewrite Rminus_0_r. apply HN, Hk.
Qed.
(** the law of a new particle, whatever is made of it *)
Lemma worker_law c : Worker A outs p (Theta * num * num * nat) Theta (Theta * A) pairs mu2 out W c.
Proof.
  intros G G' Bd Hb Hc. apply cv_unshift. apply (cv_ext (fun k => total (map (fun i => Q2R (w i) * total (map (fun th => reach k i th * at_sim (G (S k)) th) Ts)) (seq 0 m)))); [intros k; symmetry; exact (W_mean (G (S k)) k c)|].
  replace (expect pairs mu2 (fun b => G' (out b))) with (total (map (fun i => Q2R (w i) * total (map (fun th => Q2R (kern i th) / mass i * at_sim G' th) Ts)) (seq 0 m))).
  - apply P_Consist2.total_cv. intros i Hi. apply in_seq in Hi. apply CV_mult; [apply cv_const|]. apply P_Consist2.total_cv. intros th Hth. apply CV_mult; [apply reach_limit; [lia|exact Hth]|].
    unfold at_sim. apply expect_cv. intros a Ha. apply (cv_shift1 (fun k => G k (out (th, a)))). apply Hc. apply in_prod; assumption.
  - unfold expect, pairs. rewrite total_prod. rewrite (total_ext _ (fun i => total (map (fun th => Q2R (w i) * (Q2R (kern i th) / mass i * at_sim G' th)) Ts))) by (intros; rewrite total_scale; reflexivity). rewrite total_swap. apply total_ext. intros th _.
    unfold mu2. cbn [fst snd]. rewrite (total_ext _ (fun i => at_sim G' th * (Q2R (w i) * (Q2R (kern i th) / mass i)))) by (intros; ring). rewrite total_scale. fold (truncated th). rewrite Rmult_comm. unfold at_sim, expect. rewrite <- total_scale. apply total_ext. intros a _. ring.
Qed.
Lemma truncated_nonneg th : 0 <= truncated th.
Proof.
  unfold P_Law3.truncated. apply total_nonneg, Forall_forall. intros x Hx. apply in_map_iff in Hx. destruct Hx as (i & <- & Hi). apply in_seq in Hi. rewrite <- pick_law, <- (prop_law i th) by lia.
  apply Rmult_le_pos; [apply chance_range, law|]. apply Rmult_le_pos; [apply chance_range, law|]. apply Rlt_le, Rinv_0_lt_compat, mass_pos. lia.
Qed.
Lemma weights_sum : total (map (fun i => Q2R (w i)) (seq 0 m)) = 1.
Proof.
  transitivity (expect outs p (fun a => (fun _ : nat => 1) (pick a))); [|exact (expect_const _ outs p 1 law)]. symmetry. etransitivity; [apply (group outs p Nat.eq_dec (seq 0 m) pick (fun _ => 1) (seq_NoDup m 0)); intros a Ha; left; apply in_seq; specialize (pick_range a Ha); lia|].
  apply total_ext. intros i Hi. apply in_seq in Hi. rewrite pick_law by lia. ring.
Qed.
Lemma truncated_sum : total (map truncated Ts) = 1.
Proof.
  unfold P_Law3.truncated. rewrite total_swap. rewrite <- weights_sum. apply total_ext. intros i Hi. apply in_seq in Hi. rewrite total_scale. pose proof (mass_pos i ltac:(lia)).
  rewrite (total_ext _ (fun th => / mass i * Q2R (kern i th))) by (intros; unfold Rdiv; ring). rewrite total_scale. fold (mass i). field. lra.
Qed.
Lemma mu2_law : Law pairs mu2.
Proof.
  split; [intros [th a] H; apply in_prod_iff in H; apply Rmult_le_pos; [apply truncated_nonneg|apply (proj1 law), H]|]. unfold pairs. rewrite total_prod. rewrite <- truncated_sum. apply total_ext. intros th _. unfold mu2. cbn [fst snd]. rewrite total_scale, (proj2 law). ring.
Qed.
(** C91 (law of a new particle): as the number of available draws grows, the expectation of any quantity of its parameters and its distance, times its weight, tends to the
    expectation over the prior and the simulator, distorted by truncated th / mixture th *)
Theorem C91_law : forall (g : Theta -> num -> R) Bd c, (forall th d, In th Ts -> Rabs (Q2R (wq th) * g th d) <= Bd) ->
  Un_cv (fun k => mean outs p k (fun l => match W k l c with Ok (th, d, wt, _, _) => real wt * g th d | Err _ => 0 end))
        (total (map (fun th => Q2R (pi th) * (truncated th / mixture th) * expect outs p (fun a => g th (dist (dat th a)))) Ts)).
Proof.
  intros g Bd c HB.
  pose (G := fun x : Theta * num * num * nat * Theta => let '(th, d, wt, _, _) := x in if in_dec teq th Ts then Q2R (wq th) * g th d else 0).
  assert (NE : Ts <> []) by (intros ET; pose proof truncated_sum as X; rewrite ET in X at 2; unfold total in X; cbn in X; lra). destruct (nonempty Ts NE) as (t0 & Ht0). assert (B0 : 0 <= Bd) by (eapply Rle_trans; [apply Rabs_pos|apply (HB t0 NaN Ht0)]).
  eapply cv_ext; [|eapply cv_limit; [|apply (worker_law c (fun _ => G) G Bd)]].
  - intros k. apply mean_ext. intros l _. cbn beta. unfold W, ap_accept. rewrite len_w. destruct (choice m (p_w q) l) as [[r1 i]|]; [|reflexivity]. destruct (propose _ _ _ _ _ _ _ _ _ _ _) as [[[c1 r2] th]|] eqn:Ep; [|reflexivity].
    apply (propose_same A Theta setp pdfv kupd q pi Ts set_all density Ts_density) in Ep. destruct Ep as [-> Hth]. destruct (simc th r2) as [r3 [y|]]; [|reflexivity]. unfold pdf_of_prior. rewrite set_all, density. cbn [snd]. rewrite (weight_here th Hth). unfold G. destruct (in_dec teq th Ts); [reflexivity|contradiction].
  - unfold expect, pairs. rewrite total_prod. apply total_ext. intros th Hth. unfold mu2, out, G. cbn [fst snd]. destruct (in_dec teq th Ts); [|contradiction].
    rewrite (total_ext _ (fun a => truncated th * Q2R (wq th) * (p a * g th (dist (dat th a))))) by (intros; ring). rewrite total_scale. rewrite (wq_value Theta teq setp pdfv kpdf q m row w kern pi Ts set_all density rows_ok weights_ok kpdf_ok mixture_pos th Hth).
    unfold P_Consist2.u. destruct (in_dec teq th Ts); [|contradiction]. pose proof (mixture_pos th Hth). field. lra.
  - intros k [[[[th d] wt] cnt] c']. unfold G. destruct (in_dec teq th Ts); [apply HB; assumption|rewrite Rabs_R0; exact B0].
  - intros b _. apply cv_const.
Qed.

(** C91 (when the weights are right): if every kernel has the same mass m0 on the prior's support, these are the expectations over prior and simulator, over m0 *)
Theorem C91_proper : forall m0 (g : Theta -> num -> R) Bd c, (forall i, (i < m)%nat -> mass i = m0) -> (0 < m)%nat -> (forall th d, In th Ts -> Rabs (Q2R (wq th) * g th d) <= Bd) ->
  Un_cv (fun k => mean outs p k (fun l => match W k l c with Ok (th, d, wt, _, _) => real wt * g th d | Err _ => 0 end))
        (total (map (fun th => Q2R (pi th) * expect outs p (fun a => g th (dist (dat th a)))) Ts) / m0).
Proof.
  intros m0 g Bd c Hm Hp HB. eapply cv_limit; [|exact (C91_law g Bd c HB)]. unfold Rdiv at 2. rewrite (Rmult_comm (total _)), <- total_scale. apply total_ext. intros th Hth.
  assert (P0 : 0 < m0) by (rewrite <- (Hm 0%nat Hp); apply mass_pos, Hp). pose proof (mixture_pos th Hth).
  replace (truncated th / mixture th) with (/ m0); [ring|]. unfold P_Law3.truncated. rewrite (total_ext _ (fun i => / m0 * (Q2R (w i) * Q2R (kern i th)))) by (intros i Hi; apply in_seq in Hi; rewrite Hm by lia; field; lra). rewrite total_scale. fold (mixture th). field. lra.
Qed.

Notation astate := (astate Theta).
(** an iteration after the first, for which the particles of q with distances ds have been retained; every worker has k draws *)
Definition next_step (n n_alpha steps full aStep : nat) (alpha cutoff : Q) (s : astate) (k : nat) (l : list A) : res astate :=
  ap_step Theta (list A) Y setp pdfv kupd kpdf prior simc dist (fun z => chunk k (Z.to_nat z) l) (fun r => r) choice n n_alpha steps alpha cutoff full (S k) aStep Z.of_nat s.
(** the average of f over the last record of the journal *)
Definition recorded5 (f : Theta -> R) (s : astate) : option R := match rev (z_recs Theta s) with r :: _ => Some (weighted f (r_rows r) (map real (r_w r))) | [] => None end.
Definition retained (f : Theta -> R) : R := total (map (fun i => Q2R (w i) * f (row i)) (seq 0 m)).
Lemma weighted_sum (f : Theta -> R) : forall rows ws, length rows = length ws -> forall rows' ws',
  total (map (fun rw => snd rw * f (fst rw)) (combine (rows ++ rows') (ws ++ ws'))) = total (map (fun rw => snd rw * f (fst rw)) (combine rows ws)) + total (map (fun rw => snd rw * f (fst rw)) (combine rows' ws')).
Proof. induction rows as [|x rows IH]; intros [|v ws] H rows' ws'; try discriminate; cbn [app combine map]; [change (total []) with 0; ring|]. rewrite !total_cons, IH by (cbn in H; lia). ring. Qed.
Lemma step_value n n_alpha steps full aStep alpha cutoff s ds k l (F : option R -> R) (f : Theta -> R) : (0 < n_alpha < n)%nat -> (0 < aStep)%nat -> (0 <= alpha <= 1)%Q ->
  (full = 1 /\ aStep <= steps - 1 \/ full = 0 /\ aStep = steps - 1)%nat -> z_alpha Theta s = Some (p_rows q, p_w q, ds) -> z_eps Theta s <> [] ->
  match next_step n n_alpha steps full aStep alpha cutoff s k l with Ok s' => F (recorded5 f s') | Err _ => 0 end =
  match mapT (fun i c => W k (chunk k i l) c) (seq 0 (n - n_alpha)) (z_cur Theta s) with
  | Ok (ys, _) => F (Some ((retained f + total (map (fun x => real (snd (fst x)) * f (fst (fst (fst x)))) ys)) / (1 + total (map (fun x => real (snd (fst x))) ys)))) | Err _ => 0 end.
Proof.
  intros Hk Ht Ha Hr Hal He. unfold next_step, ap_step. destruct aStep as [|t]; [lia|]. rewrite Hal. assert (Eq : mkpop (p_rows q) (p_w q) = q) by (clear; destruct q; reflexivity). rewrite Eq. unfold seeds_of. rewrite (mapT_map Z.of_nat).
  rewrite (mapT_ext _ (fun i c => W k (chunk k i l) c)) by (intros i c _; unfold W, ap_accept; rewrite Nat2Z.id; destruct (choice (length (p_w q)) (p_w q) (chunk k i l)) as [[r1 j]|]; [|reflexivity]; destruct (propose _ _ _ _ _ _ _ _ _ _ _) as [[[c1 r2] th]|]; [|reflexivity]; destruct (simc c1 r2) as [r3 [y|]]; [|reflexivity]; destruct (pdf_of_prior _ _ _ _ _); reflexivity).
  destruct (mapT _ (seq 0 (n - n_alpha)) (z_cur Theta s)) as [[ys c']|] eqn:Em; [|reflexivity].
  assert (Ly : length ys = (n - n_alpha)%nat).
  { assert (G : forall is_ c zs c2, mapT (fun i c => W k (chunk k i l) c) is_ c = Ok (zs, c2) -> length zs = length is_).
    { induction is_ as [|i is_ IH]; intros c zs c2 H; cbn [mapT] in H; [injection H as <- _; reflexivity|]. destruct (W k (chunk k i l) c) as [[x c1]|]; [|discriminate]. destruct (mapT _ is_ c1) as [[zs' c3]|] eqn:E; [|discriminate]. injection H as <- _. cbn [length]. rewrite (IH _ _ _ E). reflexivity. }
    rewrite (G _ _ _ _ Em), seq_length. reflexivity. }
  destruct ys as [|y0 ys]; [cbn in Ly; lia|]. set (zs := y0 :: ys) in *. rewrite map_length, Ly. replace (n - n_alpha =? n)%nat with false by (symmetry; apply Nat.eqb_neq; lia).
  destruct (rev (z_eps Theta s)) as [|e0 es] eqn:Er; [exfalso; apply He; rewrite <- (rev_involutive (z_eps Theta s)), Er; reflexivity|].
  assert (P : exists e, percentile (ds ++ map (fun x => snd (fst (fst x))) zs) (alpha * 100) = Ok e).
  { unfold percentile, quantile. assert (Q1 : Qle_bool 0 (alpha * 100 / 100) = true) by (apply Qle_bool_iff; setoid_replace (alpha * 100 / 100)%Q with alpha by field; apply Ha). assert (Q2 : Qle_bool (alpha * 100 / 100) 1 = true) by (apply Qle_bool_iff; setoid_replace (alpha * 100 / 100)%Q with alpha by field; apply Ha).
    rewrite Q1, Q2. cbn [andb negb]. destruct (ds ++ map _ zs) as [|d0 ds0] eqn:Ed; [exfalso; apply app_eq_nil in Ed; destruct Ed as [_ Ed]; discriminate|]. destruct (existsb is_nan _); eexists; reflexivity. }
  destruct P as (e & ->).
  assert (Rc : ((full =? 1)%nat && (S t <=? steps - 1)%nat || (full =? 0)%nat && (S t =? steps - 1)%nat)%bool = true).
  { destruct Hr as [[-> Hr]|[-> ->]]; [apply Nat.leb_le in Hr; rewrite Hr; reflexivity|]. cbn [Nat.eqb andb orb]. apply Nat.eqb_refl. }
  rewrite Rc. unfold recorded5. cbn [z_recs]. rewrite rev_app_distr. cbn [rev app r_rows r_w]. f_equal. f_equal. unfold weighted. rewrite map_app.
  assert (L1 : length (p_rows q) = length (map real (p_w q))) by (rewrite map_length, len_w, rows_ok, map_length, seq_length; reflexivity). rewrite (weighted_sum f _ _ L1).
  assert (E1 : total (map (fun rw => snd rw * f (fst rw)) (combine (p_rows q) (map real (p_w q)))) = retained f).
  { rewrite rows_ok, weights_ok, map_map. cbn [real]. unfold retained. clear. induction (seq 0 m) as [|i is_ IH]; [reflexivity|]. cbn [map combine]. rewrite !total_cons, IH. reflexivity. }
  assert (E2 : total (map real (p_w q)) = 1) by (rewrite weights_ok, map_map; cbn [real]; exact weights_sum).
  rewrite E1, total_app, E2. rewrite !map_map. f_equal. f_equal. clear. generalize zs. clear. intros zs. induction zs as [|x zs IH]; [reflexivity|]. cbn [map combine]. rewrite !total_cons, IH. reflexivity.
Qed.
(** what the averages approach *)
Definition limit5 (f : Theta -> R) : R := total (map (fun th => Q2R (pi th) * (truncated th / mixture th) * f th) Ts) / total (map (fun th => Q2R (pi th) * (truncated th / mixture th)) Ts).
Lemma expect_fst (g : Theta -> R) : expect pairs mu2 (fun b => g (fst b)) = expect Ts truncated g.
Proof. unfold expect, pairs. rewrite total_prod. apply total_ext. intros th _. unfold mu2. cbn [fst snd]. rewrite (total_ext _ (fun a => truncated th * g th * p a)) by (intros; ring). rewrite total_scale, (proj2 law). ring. Qed.
Lemma truncated_law : Law Ts truncated.
Proof. split; [intros; apply truncated_nonneg|exact truncated_sum]. Qed.
Lemma expect_u (g : Theta -> R) : expect Ts truncated (fun th => u th * g th) = total (map (fun th => Q2R (pi th) * (truncated th / mixture th) * g th) Ts).
Proof. unfold expect. apply total_ext. intros th Hth. unfold P_Consist2.u. destruct (in_dec teq th Ts); [|contradiction]. pose proof (mixture_pos th Hth). field. lra. Qed.
Lemma up5 th : 0 < u th. Proof. apply u_pos; assumption. Qed.
Lemma expect_pos5 : 0 < expect Ts truncated u.
Proof.
  destruct truncated_law as [M1 M2]. unfold expect. destruct (Rle_lt_dec (total (map (fun th => truncated th * u th) Ts)) 0) as [Z|P]; [exfalso|exact P].
  assert (Z0 : forall l, total (map (fun th => truncated th * u th) l) <= 0 -> total (map truncated l) = 0).
  { induction l as [|th l IH]; intros Hz; [reflexivity|]. cbn [map] in *. rewrite total_cons in *. assert (X : 0 <= total (map (fun th => truncated th * u th) l)) by (apply total_nonneg, Forall_forall; intros x Hx; apply in_map_iff in Hx; destruct Hx as (t & <- & Ht); apply Rmult_le_pos; [apply truncated_nonneg|apply Rlt_le, up5]).
    pose proof (truncated_nonneg th) as [Y0|Y0]; [pose proof (Rmult_lt_0_compat _ _ Y0 (up5 th)); lra|]. rewrite <- Y0 in *. rewrite IH; lra. }
  rewrite (Z0 Ts Z) in M2. lra.
Qed.
(** C91 (what is recorded): given the retained population q, as every worker gets more draws, the probability that an iteration records a population in which the weighted average of f is
    more than e away from its limit tends to a number of order 1/n_new, as soon as n_new, the number of new particles, is so large that the retained ones, whose weights sum to
    1, make no difference.  The probability that the iteration finishes tends to 1 *)
Theorem C91_recorded : forall n n_alpha steps full aStep alpha cutoff s ds (f : Theta -> R) e, (0 < n_alpha < n)%nat -> (0 < aStep)%nat -> (0 <= alpha <= 1)%Q ->
  (full = 1 /\ aStep <= steps - 1 \/ full = 0 /\ aStep = steps - 1)%nat -> z_alpha Theta s = Some (p_rows q, p_w q, ds) -> z_eps Theta s <> [] -> 0 < e ->
  let n_new := (n - n_alpha)%nat in let x := limit5 f in let U := expect Ts truncated u in
  4 * Rabs (retained f - x) <= e * (INR n_new * U) ->
  (exists v, Un_cv (fun k => prob outs p (n_new * k) (fun l => match next_step n n_alpha steps full aStep alpha cutoff s k l with Ok s' => match recorded5 f s' with Some y => far e y x | None => true end | Err _ => false end)) v
     /\ v <= 4 * (variance Ts truncated u + 4 * expect Ts truncated (fun th => (u th * (f th - x)) ^ 2) / e ^ 2) / (INR n_new * U ^ 2)) /\
  Un_cv (fun k => prob outs p (n_new * k) (fun l => match next_step n n_alpha steps full aStep alpha cutoff s k l with Ok _ => true | Err _ => false end)) 1.
Proof.
  intros n n_alpha steps full aStep alpha cutoff s ds f e Hk Ht Ha Hr Hal He Hp n_new x U HD. set (c := z_cur Theta s). assert (Hn : (0 < n_new)%nat) by (unfold n_new; lia). split.
  - pose (F := fun o : option R => if match o with Some y => far e y x | None => true end then 1 else 0).
    pose (H := fun ys : list (Theta * num * num * nat) => F (Some ((retained f + total (map (fun x => real (snd (fst x)) * f (fst (fst (fst x)))) ys)) / (1 + total (map (fun x => real (snd (fst x))) ys))))).
    pose (uu := fun b : Theta * A => u (fst b)). pose (ff := fun b : Theta * A => f (fst b)).
    assert (EU : expect pairs mu2 uu = U) by (unfold uu, U; exact (expect_fst u)).
    assert (EV : variance pairs mu2 uu = variance Ts truncated u) by (unfold variance; rewrite EU; exact (expect_fst (fun th => (u th - U) ^ 2))).
    assert (EG : expect pairs mu2 (fun b => (uu b * (ff b - x)) ^ 2) = expect Ts truncated (fun th => (u th * (f th - x)) ^ 2)) by exact (expect_fst (fun th => (u th * (f th - x)) ^ 2)).
    assert (EM : x = expect pairs mu2 (fun b => uu b * ff b) / expect pairs mu2 uu).
    { rewrite EU. unfold uu, ff. rewrite (expect_fst (fun th => u th * f th)), expect_u. unfold x, limit5, U. f_equal. rewrite (expect_ext _ _ _ _ (fun th => u th * 1)) by (intros; ring). rewrite expect_u. apply total_ext. intros; ring. }
    exists (prob pairs mu2 n_new (fun bs => far e ((retained f + total (map (fun b => uu b * ff b) bs)) / (1 + total (map uu bs))) x)). split.
    + rewrite (prob_mean _ pairs mu2). apply (cv_ext (fun k => all_workers A outs p (Theta * num * num * nat) Theta W H n_new k c)).
      * intros k. rewrite (prob_mean A outs p). unfold all_workers. apply mean_ext. intros l _. unfold H, c, n_new. rewrite <- (step_value n n_alpha steps full aStep alpha cutoff s ds k l F f Hk Ht Ha Hr Hal He). unfold F. destruct (next_step n n_alpha steps full aStep alpha cutoff s k l) as [s'|]; [destruct (recorded5 f s'); reflexivity|reflexivity].
      * eapply cv_limit; [|apply (workers_law A outs p law (Theta * num * num * nat) Theta (Theta * A) pairs mu2 out W worker_law n_new H 1 c)].
        -- assert (Hx : forall bs, (forall b, In b bs -> In (fst b) Ts) -> H (map (fun b => fst (out b)) bs) = if far e ((retained f + total (map (fun b => uu b * ff b) bs)) / (1 + total (map uu bs))) x then 1 else 0).
           { intros bs Hb. unfold H, F. rewrite !map_map. rewrite (total_ext (fun b => real (snd (fst (fst (out b)))) * f (fst (fst (fst (fst (out b)))))) (fun b => uu b * ff b)), (total_ext (fun b => real (snd (fst (fst (out b))))) uu); [reflexivity| |];
             intros [th a] Hi; unfold uu, ff, out; cbn [fst snd real]; rewrite (wq_value Theta teq setp pdfv kpdf q m row w kern pi Ts set_all density rows_ok weights_ok kpdf_ok mixture_pos th (Hb _ Hi)); reflexivity. }
           assert (ME : forall N (F1 F2 : list (Theta * A) -> R), (forall bs, (forall b, In b bs -> In (fst b) Ts) -> F1 bs = F2 bs) -> mean pairs mu2 N F1 = mean pairs mu2 N F2).
           { induction N as [|N IH]; intros F1 F2 HF; cbn [mean]; [apply HF; intros b []|]. apply expect_ext. intros b Hb. apply IH. intros bs Hbs. apply HF. intros b' [<-|Hb']; [destruct b as [th a]; apply in_prod_iff in Hb; apply Hb|apply Hbs, Hb']. }
           apply ME. exact Hx.
        -- intros ys. unfold H, F. destruct (far _ _ _); [rewrite Rabs_R1|rewrite Rabs_R0]; lra.
    + rewrite <- EG, <- EV. rewrite <- EU in HD |- *. apply (anchored_law _ pairs mu2 mu2_law uu ff n_new e x (retained f) (Rabs (retained f - x)) Hn Hp); try exact HD; [intros b; apply up5|rewrite EU; apply expect_pos5|exact EM|lra].
  - apply (cv_ext (fun k => all_workers A outs p (Theta * num * num * nat) Theta W (fun _ => 1) n_new k c)).
    + intros k. rewrite (prob_mean A outs p). unfold all_workers. apply mean_ext. intros l _. unfold c, n_new. rewrite <- (step_value n n_alpha steps full aStep alpha cutoff s ds k l (fun _ => 1) f Hk Ht Ha Hr Hal He). destruct (next_step n n_alpha steps full aStep alpha cutoff s k l); reflexivity.
    + eapply cv_limit; [|apply (workers_law A outs p law (Theta * num * num * nat) Theta (Theta * A) pairs mu2 out W worker_law n_new (fun _ => 1) 1 c); intros; rewrite Rabs_R1; lra]. apply (mean_const _ pairs mu2 mu2_law).
Qed.
(** C91 (how many samples) *)
Theorem C91_enough : forall n n_alpha steps full aStep alpha cutoff s ds (f : Theta -> R) e d, (0 < n_alpha < n)%nat -> (0 < aStep)%nat -> (0 <= alpha <= 1)%Q ->
  (full = 1 /\ aStep <= steps - 1 \/ full = 0 /\ aStep = steps - 1)%nat -> z_alpha Theta s = Some (p_rows q, p_w q, ds) -> z_eps Theta s <> [] -> 0 < e ->
  let n_new := (n - n_alpha)%nat in let x := limit5 f in let U := expect Ts truncated u in
  4 * Rabs (retained f - x) <= e * (INR n_new * U) ->
  4 * (variance Ts truncated u + 4 * expect Ts truncated (fun th => (u th * (f th - x)) ^ 2) / e ^ 2) / (INR n_new * U ^ 2) < d -> exists k0, forall k, (k0 <= k)%nat ->
  prob outs p (n_new * k) (fun l => match next_step n n_alpha steps full aStep alpha cutoff s k l with Ok s' => match recorded5 f s' with Some y => negb (far e y x) | None => false end | Err _ => false end) > 1 - d.
Proof.
  intros n n_alpha steps full aStep alpha cutoff s ds f e d Hk Ht Ha Hr Hal He Hp n_new x U HD HB. destruct (C91_recorded n n_alpha steps full aStep alpha cutoff s ds f e Hk Ht Ha Hr Hal He Hp HD) as ((v & Hv & Hle) & H1). fold n_new x U in Hv, Hle, H1.
  set (g := (d - v) / 2). assert (G : 0 < g) by (unfold g; lra). destruct (Hv g G) as (k1 & K1). destruct (H1 g G) as (k2 & K2). exists (max k1 k2). intros k Hk'. specialize (K1 k ltac:(lia)). specialize (K2 k ltac:(lia)). unfold R_dist in *.
  apply Rabs_def2 in K1, K2.
  match goal with |- prob _ _ _ ?F > _ => set (good := F) end. match type of K1 with prob _ _ _ ?F - _ < _ /\ _ => set (bad := F) in * end. match type of K2 with prob _ _ _ ?F - _ < _ /\ _ => set (fin := F) in * end.
  assert (X : prob outs p (n_new * k) fin <= prob outs p (n_new * k) good + prob outs p (n_new * k) bad).
  { eapply Rle_trans; [|apply (prob_or A outs p law)]. apply (prob_le A outs p law). intros l. unfold fin, good, bad. destruct (next_step n n_alpha steps full aStep alpha cutoff s k l) as [s'|]; [|discriminate]. destruct (recorded5 f s') as [y|]; [destruct (far e y x)|]; reflexivity. }
  unfold g in *. lra.
Qed.
(** C91 (the limit): if every kernel has the same mass on the prior's support, the averages approach the prior expectation: neither the data nor the distance nor the threshold matters *)
Theorem C91_prior : forall m0 (f : Theta -> R), (forall i, (i < m)%nat -> mass i = m0) -> (0 < m)%nat ->
  limit5 f = total (map (fun th => Q2R (pi th) * f th) Ts) / total (map (fun th => Q2R (pi th)) Ts) /\ expect Ts truncated u = total (map (fun th => Q2R (pi th)) Ts) / m0.
Proof.
  intros m0 f Hm Hn. assert (P0 : 0 < m0) by (rewrite <- (Hm 0%nat Hn); apply mass_pos, Hn).
  assert (R0 : forall th, In th Ts -> truncated th / mixture th = / m0).
  { intros th Hth. pose proof (mixture_pos th Hth). unfold P_Law3.truncated. rewrite (total_ext _ (fun i => / m0 * (Q2R (w i) * Q2R (kern i th)))) by (intros i Hi; apply in_seq in Hi; rewrite Hm by lia; field; lra). rewrite total_scale. fold (mixture th). field. lra. }
  assert (E : expect Ts truncated u = / m0 * total (map (fun th => Q2R (pi th)) Ts)).
  { rewrite (expect_ext _ _ _ _ (fun th => u th * 1)) by (intros; ring). rewrite expect_u, <- total_scale. apply total_ext. intros th Hth. rewrite (R0 th Hth). ring. }
  split; [|rewrite E; field; lra]. pose proof expect_pos5 as P. rewrite E in P.
  unfold limit5. rewrite (total_ext (fun th => Q2R (pi th) * (truncated th / mixture th)) (fun th => / m0 * Q2R (pi th))) by (intros th Hth; rewrite R0 by exact Hth; ring).
  rewrite (total_ext (fun th => Q2R (pi th) * (truncated th / mixture th) * f th) (fun th => / m0 * (Q2R (pi th) * f th))) by (intros th Hth; rewrite R0 by exact Hth; ring).
  rewrite !total_scale. field. split; [|lra]. intros X. rewrite X, Rmult_0_r in P. lra.
Qed.
End Population.
Print Assumptions C91_law.
Print Assumptions C91_proper.
Print Assumptions C91_recorded.
Print Assumptions C91_enough.
Print Assumptions C91_prior.

(** ** The first iteration *)
Section First.
Variables A Theta Y : Type.
Variable outs : list A.
Variable p : A -> R.
Hypothesis law : Law outs p.
Variable setp : Theta -> Theta -> bool * Theta.
Variable pdfv : Theta -> Theta -> num.
Variable kupd : pop Theta -> nat -> list A -> list A * Theta.
Variable kpdf : pop Theta -> Theta -> Theta -> num.
Variable prior : list A -> list A * Theta.
Variable simc : Theta -> list A -> list A * option Y.
Variable dist : Y -> num.
Variable choice : nat -> list num -> list A -> res (list A * nat).
(** the parameters that a draw from the prior gives, and the data *)
Variable pth : A -> Theta.
Variable dat : Theta -> A -> Y.
Hypothesis prior_draw : forall a l, prior (a :: l) = (l, pth a).
Hypothesis sim_draw : forall th a l, simc th (a :: l) = (l, Some (dat th a)).
Definition W0 (k : nat) (l : list A) (c : Theta) : res (Theta * num * num * nat * Theta) :=
  ap_accept Theta (list A) Y setp pdfv kupd kpdf prior simc dist (fun _ => l) (fun r => r) choice None (S k) 0 c.
Definition out0 (b : A * A) : Theta * num * num * nat * Theta := let th := pth (fst b) in (th, dist (dat th (snd b)), Fin 1, 1%nat, th).
Definition mu0 (b : A * A) : R := p (fst b) * p (snd b).
Notation pairs0 := (list_prod outs outs).
Lemma worker0_law c : Worker A outs p (Theta * num * num * nat) Theta (A * A) pairs0 mu0 out0 W0 c.
Proof.
  intros G G' Bd Hb Hc. apply cv_unshift, cv_unshift. apply (cv_ext (fun k => expect pairs0 mu0 (fun b => G (S (S k)) (out0 b)))).
  - intros k. unfold expect at 1. rewrite total_prod. cbn [mean]. unfold expect. apply total_ext. intros a _. rewrite <- total_scale. apply total_ext. intros a' _. unfold mu0. cbn [fst snd]. rewrite Rmult_assoc. f_equal. f_equal. symmetry.
    transitivity (mean outs p k (fun _ => G (S (S k)) (out0 (a, a')))); [|apply (mean_const _ outs p law)]. apply mean_ext. intros l _. unfold W0, ap_accept. rewrite prior_draw, sim_draw. reflexivity.
  - apply expect_cv. intros b Hb'. apply (cv_shift1 (fun k => G (S k) (out0 b))), (cv_shift1 (fun k => G k (out0 b))), Hc, Hb'.
Qed.
Lemma mu0_law : Law pairs0 mu0.
Proof.
  split; [intros [a b] H; apply in_prod_iff in H; apply Rmult_le_pos; apply (proj1 law), H|]. rewrite total_prod. rewrite <- (proj2 law). apply total_ext. intros a _. unfold mu0. cbn [fst snd]. rewrite total_scale, (proj2 law). ring.
Qed.
Lemma expect_first (g : A -> R) : expect pairs0 mu0 (fun b => g (fst b)) = expect outs p g.
Proof. unfold expect. rewrite total_prod. apply total_ext. intros a _. unfold mu0. cbn [fst snd]. rewrite (total_ext _ (fun b => p a * g a * p b)) by (intros; ring). rewrite total_scale, (proj2 law). ring. Qed.
Definition first_step (n n_alpha steps full : nat) (alpha cutoff : Q) (s : astate Theta) (k : nat) (l : list A) : res (astate Theta) :=
  ap_step Theta (list A) Y setp pdfv kupd kpdf prior simc dist (fun z => chunk k (Z.to_nat z) l) (fun r => r) choice n n_alpha steps alpha cutoff full (S k) 0 Z.of_nat s.
Lemma W0_weight k l c x c' : W0 k l c = Ok (x, c') -> snd (fst x) = Fin 1.
Proof. unfold W0, ap_accept. destruct (prior l) as [r1 th]. destruct (simc th r1) as [r2 [y|]]; [|discriminate]. intros [= <- _]. reflexivity. Qed.
Lemma first_value n n_alpha steps full alpha cutoff s k l (F : option R -> R) (f : Theta -> R) : (0 < n)%nat -> (0 <= alpha <= 1)%Q -> (full = 1 \/ full = 0 /\ steps = 1)%nat -> z_alpha Theta s = None -> z_mgr Theta s = None ->
  match first_step n n_alpha steps full alpha cutoff s k l with Ok s' => F (recorded5 Theta f s') | Err _ => 0 end =
  match mapT (fun i c => W0 k (chunk k i l) c) (seq 0 n) (z_cur Theta s) with Ok (ys, _) => F (Some (S_Stats.average (map (fun x => f (fst (fst (fst x)))) ys))) | Err _ => 0 end.
Proof.
  intros Hn Ha Hr Hal Hm. unfold first_step, ap_step. rewrite Hal, Hm. unfold seeds_of. rewrite (mapT_map Z.of_nat).
  rewrite (mapT_ext _ (fun i c => W0 k (chunk k i l) c)) by (intros i c _; unfold W0, ap_accept; rewrite Nat2Z.id; destruct (prior _) as [r1 th]; destruct (simc th r1) as [r2 [y|]]; reflexivity).
  destruct (mapT _ (seq 0 n) (z_cur Theta s)) as [[ys c']|] eqn:Em; [|reflexivity].
  assert (Ly : length ys = n /\ Forall (fun x => snd (fst x) = Fin 1) ys).
  { assert (G : forall is_ c zs c2, mapT (fun i c => W0 k (chunk k i l) c) is_ c = Ok (zs, c2) -> length zs = length is_ /\ Forall (fun x => snd (fst x) = Fin 1) zs).
    { induction is_ as [|i is_ IH]; intros c zs c2 H; cbn [mapT] in H; [injection H as <- _; split; [reflexivity|constructor]|]. destruct (W0 k (chunk k i l) c) as [[x c1]|] eqn:E1; [|discriminate]. destruct (mapT _ is_ c1) as [[zs' c3]|] eqn:E; [|discriminate]. injection H as <- _. destruct (IH _ _ _ E) as [L1 L2].
      split; [cbn [length]; rewrite L1; reflexivity|]. constructor; [exact (W0_weight _ _ _ _ _ E1)|exact L2]. }
    destruct (G _ _ _ _ Em) as [L1 L2]. rewrite seq_length in L1. split; assumption. }
  destruct Ly as [Ly Lw]. destruct ys as [|y0 ys]; [cbn in Ly; lia|]. set (zs := y0 :: ys) in *. rewrite map_length, Ly, Nat.eqb_refl.
  assert (P : exists e, percentile (map (fun x => snd (fst (fst x))) zs) (alpha * 100) = Ok e).
  { unfold percentile, quantile. assert (Q1 : Qle_bool 0 (alpha * 100 / 100) = true) by (apply Qle_bool_iff; setoid_replace (alpha * 100 / 100)%Q with alpha by field; apply Ha). assert (Q2 : Qle_bool (alpha * 100 / 100) 1 = true) by (apply Qle_bool_iff; setoid_replace (alpha * 100 / 100)%Q with alpha by field; apply Ha).
    rewrite Q1, Q2. cbn [andb negb]. unfold zs. cbn [map]. destruct (existsb is_nan _); eexists; reflexivity. }
  destruct P as (e & ->).
  assert (Rc : ((full =? 1)%nat && (0 <=? steps - 1)%nat || (full =? 0)%nat && (0 =? steps - 1)%nat)%bool = true) by (destruct Hr as [-> | [-> ->]]; reflexivity).
  rewrite Rc. unfold recorded5. cbn [z_recs]. rewrite rev_app_distr. cbn [rev app r_rows r_w]. f_equal. f_equal. unfold weighted, S_Stats.average. rewrite !map_map, map_length.
  assert (T : forall xs : list (Theta * num * num * nat), Forall (fun x => snd (fst x) = Fin 1) xs -> total (map (fun x => real (snd (fst x))) xs) = INR (length xs) /\
     total (map (fun rw => snd rw * f (fst rw)) (combine (map (fun x => fst (fst (fst x))) xs) (map (fun x => real (snd (fst x))) xs))) = total (map (fun x => f (fst (fst (fst x)))) xs)).
  { induction 1 as [|x xs Hx _ [I1 I2]]; [split; reflexivity|]. cbn [map combine length]. rewrite !total_cons, I1, I2, Hx, S_INR. cbn [fst snd real]. replace (Q2R 1) with 1 by (unfold Q2R; cbn; lra). split; ring. }
  destruct (T zs Lw) as [-> ->]. reflexivity.
Qed.
(** C91 (first iteration): all particles are recorded with weight 1: averages approach the prior expectation *)
Theorem C91_first : forall n n_alpha steps full alpha cutoff s (f : Theta -> R) e, (0 < n)%nat -> (0 <= alpha <= 1)%Q -> (full = 1 \/ full = 0 /\ steps = 1)%nat -> z_alpha Theta s = None -> z_mgr Theta s = None -> 0 < e ->
  let x := expect outs p (fun a => f (pth a)) in
  (exists v, Un_cv (fun k => prob outs p (n * k) (fun l => match first_step n n_alpha steps full alpha cutoff s k l with Ok s' => match recorded5 Theta f s' with Some y => far e y x | None => true end | Err _ => false end)) v
     /\ v <= variance outs p (fun a => f (pth a)) / (INR n * e ^ 2)) /\
  Un_cv (fun k => prob outs p (n * k) (fun l => match first_step n n_alpha steps full alpha cutoff s k l with Ok _ => true | Err _ => false end)) 1.
Proof.
  intros n n_alpha steps full alpha cutoff s f e Hn Ha Hr Hal Hm Hp x. set (c := z_cur Theta s). split.
  - pose (F := fun o : option R => if match o with Some y => far e y x | None => true end then 1 else 0). pose (H := fun ys : list (Theta * num * num * nat) => F (Some (S_Stats.average (map (fun x => f (fst (fst (fst x)))) ys)))).
    pose (ff := fun b : A * A => f (pth (fst b))). assert (EX : expect pairs0 mu0 ff = x) by exact (expect_first (fun a => f (pth a))).
    exists (prob pairs0 mu0 n (fun bs => far e (S_Stats.average (map ff bs)) x)). split.
    + rewrite (prob_mean _ pairs0 mu0). apply (cv_ext (fun k => all_workers A outs p (Theta * num * num * nat) Theta W0 H n k c)).
      * intros k. rewrite (prob_mean A outs p). unfold all_workers. apply mean_ext. intros l _. unfold H, c. rewrite <- (first_value n n_alpha steps full alpha cutoff s k l F f Hn Ha Hr Hal Hm). unfold F. destruct (first_step n n_alpha steps full alpha cutoff s k l) as [s'|]; [destruct (recorded5 Theta f s'); reflexivity|reflexivity].
      * eapply cv_limit; [|apply (workers_law A outs p law (Theta * num * num * nat) Theta (A * A) pairs0 mu0 out0 W0 worker0_law n H 1 c)].
        -- apply mean_ext. intros bs _. unfold H, F. rewrite map_map. reflexivity.
        -- intros ys. unfold H, F. destruct (far _ _ _); [rewrite Rabs_R1|rewrite Rabs_R0]; lra.
    + replace (variance outs p (fun a => f (pth a))) with (variance pairs0 mu0 ff) by (unfold variance; rewrite EX; exact (expect_first (fun a => (f (pth a) - x) ^ 2))). rewrite <- EX. apply (average_law _ pairs0 mu0 mu0_law); assumption.
  - apply (cv_ext (fun k => all_workers A outs p (Theta * num * num * nat) Theta W0 (fun _ => 1) n k c)).
    + intros k. rewrite (prob_mean A outs p). unfold all_workers. apply mean_ext. intros l _. unfold c. rewrite <- (first_value n n_alpha steps full alpha cutoff s k l (fun _ => 1) f Hn Ha Hr Hal Hm). destruct (first_step n n_alpha steps full alpha cutoff s k l); reflexivity.
    + eapply cv_limit; [|apply (workers_law A outs p law (Theta * num * num * nat) Theta (A * A) pairs0 mu0 out0 W0 worker0_law n (fun _ => 1) 1 c); intros; rewrite Rabs_R1; lra]. apply (mean_const _ pairs0 mu0 mu0_law).
Qed.
End First.
Print Assumptions C91_first.
(** a case: the prior gives the draw itself, 0, 1 or 2 with equal probability; 600 particles *)
Example C91_first_case : let start := mkast Z [] None None 0 0%Z [] [] None false in
  exists v, Un_cv (fun k => prob [0; 1; 2]%Z (fun _ => 1 / 3) (600 * k) (fun l => match first_step Z Z Z Steps.setp (fun th _ => Fin (Steps.pi th)) (fun _ _ l => (l, 0%Z)) (fun _ _ _ => Fin 1) (fun l => match l with [] => ([], 0%Z) | a :: l' => (l', a) end)
      (fun th l => match l with [] => ([], None) | _ :: l' => (l', Some th) end) (fun y => Fin (inject_Z y)) (fun _ _ _ => Err ValueError) 600 300 1 0 (1 # 2) 0 start k l with Ok s' => match recorded5 Z IZR s' with Some y => far (1 / 10) y 1 | None => true end | Err _ => false end)) v /\ v <= 1 / 9.
Proof.
  intros start. assert (lw : Law [0; 1; 2]%Z (fun _ => 1 / 3)) by (split; [intros; lra|unfold total; cbn; lra]).
  assert (E : forall g, expect [0; 1; 2]%Z (fun _ => 1 / 3) g = (g 0%Z + g 1%Z + g 2%Z) / 3) by (intros g; unfold expect; cbn [map]; rewrite !total_cons; change (total []) with 0; lra).
  destruct (C91_first Z Z Z [0; 1; 2]%Z (fun _ => 1 / 3) lw Steps.setp (fun th _ => Fin (Steps.pi th)) (fun _ _ l => (l, 0%Z)) (fun _ _ _ => Fin 1) (fun l => match l with [] => ([], 0%Z) | a :: l' => (l', a) end)
      (fun th l => match l with [] => ([], None) | _ :: l' => (l', Some th) end) (fun y => Fin (inject_Z y)) (fun _ _ _ => Err ValueError) (fun a => a) (fun th _ => th) (fun _ _ => eq_refl) (fun _ _ _ => eq_refl)
      600 300 1 0 (1 # 2) 0 start IZR (1 / 10) ltac:(lia) ltac:(split; discriminate) ltac:(right; split; reflexivity) eq_refl eq_refl ltac:(lra)) as ((v & Hv & Hle) & _).
  exists v. unfold variance in Hle. rewrite !E in *. replace ((0 + 1 + 2) / 3) with 1 in * by lra. split; [exact Hv|]. eapply Rle_trans; [exact Hle|]. rewrite INR_IZR_INZ. cbn [Z.of_nat Pos.of_succ_nat Pos.succ]. lra.
Qed.

(** Case: the prior is uniform on 0, 1, 2, the data are the parameters, the distance of y from the observation is y, and the threshold 3/2: under the ABC posterior the
    parameters are 0 or 1, with equal probability.  The retained population consists of 2 h particles, half of them 0 and half of them 1, with equal weights; 2 h new ones
    are drawn (n = 4 h, alpha = 1/2); perturbations wrap around. *)
Module Prior.
Definition dist (y : Z) : num := Fin (inject_Z y).
Definition eps : num := Fin (3 # 2).
Definition start (h : nat) : astate Z :=
  mkast Z [eps] (Some (p_rows (Walk.q h), p_w (Walk.q h), map (fun i => dist (Walk.row i)) (seq 0 (Walk.n h)))) None 0 0%Z [] [] None false.
Definition run (h k : nat) (l : list (nat * Z)) : res (astate Z) :=
  next_step (nat * Z) Z Z Steps.setp (fun th _ => Fin (Steps.pi th)) (Walk.kupd Steps.clamp) (Steps.kpdf Steps.clamp) (fun l => (l, 0%Z)) Steps.simc dist Steps.choice
    (4 * h) (2 * h) 2 0 1 (1 # 2) 0 (start h) k l.
Section H.
Variable h : nat.
Hypothesis hp : (0 < h)%nat.
Definition trunc_ := truncated Z (Walk.n h) (fun _ => Walk.wq h) (Walk.kern Steps.clamp) [0; 1; 2]%Z.
Definition u_ := u Z Z.eq_dec (Walk.n h) (fun _ => Walk.wq h) (Walk.kern Steps.clamp) Steps.pi [0; 1; 2]%Z.
Definition lim := limit5 Z (Walk.n h) (fun _ => Walk.wq h) (Walk.kern Steps.clamp) Steps.pi [0; 1; 2]%Z IZR.
Lemma truncs : trunc_ 0%Z = 3 / 8 /\ trunc_ 1%Z = 3 / 8 /\ trunc_ 2%Z = 1 / 4.
Proof. destruct Walk.clamp_mass as [M0 M1]. destruct Walk.clamp_mix as (X0 & X1 & X2). unfold trunc_. rewrite !(Walk.trunc_eq h hp Steps.clamp), !Walk.clamp_trunc by lra. split; [exact X0|]. split; [exact X1|exact X2]. Qed.
Lemma us : u_ 0%Z = 8 / 9 /\ u_ 1%Z = 8 / 9 /\ u_ 2%Z = 4 / 3.
Proof. destruct Walk.clamp_mix as (X0 & X1 & X2). unfold u_. fold (Walk.u_ h Steps.clamp). rewrite !(Walk.u_eq h hp) by (cbn; auto). rewrite X0, X1, X2. split; [lra|]. split; lra. Qed.
Lemma ex g : expect [0; 1; 2]%Z trunc_ g = 3 / 8 * g 0%Z + 3 / 8 * g 1%Z + 1 / 4 * g 2%Z.
Proof. unfold expect. rewrite (Steps.three _ tt). destruct truncs as (-> & -> & ->). reflexivity. Qed.
Lemma masses i : (i < Walk.n h)%nat -> mass Z (Walk.kern Steps.clamp) [0; 1; 2]%Z i = 1.
Proof. intros Hi. rewrite Walk.mass_eq. pose proof (Nat.mod_upper_bound i 2 ltac:(lia)). destruct Walk.clamp_mass as [M0 M1]. destruct (i mod 2)%nat as [|[|j]]; [exact M0|exact M1|lia]. Qed.
Lemma ret : retained Z (Walk.n h) Walk.row (fun _ => Walk.wq h) IZR = 1 / 2.
Proof.
  unfold retained. rewrite (total_ext _ (fun i => (fun j => / INR (Walk.n h) * IZR (Z.of_nat j)) (i mod 2)%nat)) by (intros i _; rewrite (Walk.Q2R_wq h hp); reflexivity).
  rewrite (Walk.alternate h (fun j => / INR (Walk.n h) * IZR (Z.of_nat j))). pose proof (Walk.nR h hp). rewrite (Walk.hR h) in *. cbn [Z.of_nat Pos.of_succ_nat]. field. lra.
Qed.
Lemma enough e d : 0 < e -> 2 <= e * INR (2 * h) -> 4 * (1 / 27 + 4 * (20 / 27) / e ^ 2) / INR (2 * h) < d -> exists k0, forall k, (k0 <= k)%nat ->
  prob (Walk.outs h) (Walk.p h) (2 * h * k) (fun l => match run h k l with Ok s' => match recorded5 Z IZR s' with Some y => negb (far e y 1) | None => false end | Err _ => false end) > 1 - d.
Proof.
  intros He H1 H2. destruct us as (U0 & U1 & U2). destruct Walk.clamp_mix as (X0 & X1 & X2). destruct Walk.clamp_mass as [M0 M1].
  assert (Pn : forall th, (0 <= Steps.pi th)%Q) by (intros th; unfold Steps.pi; destruct (_ && _); discriminate).
  assert (MX : forall th, In th [0; 1; 2]%Z -> 0 < mixture Z (Walk.n h) (fun _ => Walk.wq h) (Walk.kern Steps.clamp) th) by (intros th Hth; rewrite (Walk.mix_eq h hp); destruct Hth as [<-|[<-|[<-|[]]]]; lra).
  assert (MP : forall i, (i < Walk.n h)%nat -> 0 < mass Z (Walk.kern Steps.clamp) [0; 1; 2]%Z i) by (intros i Hi; rewrite (masses i Hi); lra).
  assert (ND : NoDup [0; 1; 2]%Z) by (repeat (constructor; [cbn; lia|]); constructor).
  destruct (C91_prior (nat * Z) Z Z.eq_dec (Walk.outs h) (Walk.p h) (Walk.law h hp) (Walk.n h) (fun _ => Walk.wq h) (Walk.kern Steps.clamp) Steps.pi fst (Walk.prop Steps.clamp) [0; 1; 2]%Z Pn
    (Walk.pick_range h hp) (Walk.pick_law h hp) (Walk.prop_law h hp Steps.clamp) Steps.inside MP MX 1 IZR masses (Walk.np h hp)) as [EL EU].
  rewrite !(Steps.three _ tt) in EL. rewrite !(Steps.three _ tt) in EU. rewrite !Walk.third in EL by (cbn; auto). rewrite !Walk.third in EU by (cbn; auto).
  pose proof (C91_enough (nat * Z) Z Z Z.eq_dec (Walk.outs h) (Walk.p h) (Walk.law h hp) Steps.setp (fun th _ => Fin (Steps.pi th)) (Walk.kupd Steps.clamp) (Steps.kpdf Steps.clamp) (fun l => (l, 0%Z)) Steps.simc dist Steps.choice
    (Walk.q h) (Walk.n h) Walk.row (fun _ => Walk.wq h) (Walk.kern Steps.clamp) Steps.pi fst (Walk.prop Steps.clamp) (fun th _ => th) [0; 1; 2]%Z (fun _ _ => eq_refl) (fun _ _ => eq_refl) Pn
    (fun _ _ => eq_refl) (fun _ _ _ => eq_refl) (fun _ => ex_intro _ 99%Z (conj eq_refl eq_refl)) (fun _ _ _ => eq_refl) (fun _ => eq_refl) eq_refl eq_refl (fun _ _ _ => eq_refl)
    (Walk.pick_range h hp) (Walk.pick_law h hp) (Walk.prop_law h hp Steps.clamp) ND Steps.inside MP MX (4 * h) (2 * h) 2 0 1 (1 # 2) 0 (start h) _ IZR e d ltac:(lia) ltac:(lia) ltac:(split; discriminate) ltac:(right; split; reflexivity) eq_refl ltac:(discriminate) He) as L.
  rewrite EL, EU, ret in L. replace (4 * h - 2 * h)%nat with (2 * h)%nat in L by lia. fold trunc_ u_ in L. unfold variance in L. rewrite !ex, U0, U1, U2 in L.
  assert (N : 0 < INR (2 * h)) by (apply lt_0_INR; lia).
  replace ((1 / 3 * 0 + 1 / 3 * 1 + 1 / 3 * 2) / (1 / 3 + 1 / 3 + 1 / 3)) with 1 in L by lra. replace ((1 / 3 + 1 / 3 + 1 / 3) / 1) with 1 in L by lra. apply L.
  - rewrite Rabs_left by lra. lra.
  - eapply Rle_lt_trans; [|exact H2]. right. field. split; lra.
Qed.
End H.
Lemma attracted : forall d, 0 < d -> exists h0, forall h, (h0 <= h)%nat -> exists k0, forall k, (k0 <= k)%nat ->
  prob (Walk.outs h) (Walk.p h) (2 * h * k) (fun l => match run h k l with Ok s' => match recorded5 Z IZR s' with Some y => negb (far (1 / 10) y 1) | None => false end | Err _ => false end) > 1 - d.
Proof.
  intros d Hd. destruct (archimed (10000 / d)) as [Ha _]. set (z := Rdefinitions.up (10000 / d)) in *. exists (10 + Z.to_nat z)%nat. intros h Hh. assert (P : 0 < 10000 / d) by (apply Rdiv_lt_0_compat; lra).
  assert (X : 10000 / d < INR (2 * h)). { eapply Rlt_le_trans; [exact Ha|]. rewrite INR_IZR_INZ. apply IZR_le. assert (0 < z)%Z by (apply lt_IZR; lra). lia. }
  apply enough; [lia|lra| |].
  - assert (Y : INR 20 <= INR (2 * h)) by (apply le_INR; lia). replace (INR 20) with 20 in Y by (rewrite INR_IZR_INZ; reflexivity). lra.
  - apply Rmult_lt_reg_r with (INR (2 * h)); [lra|]. unfold Rdiv at 1. rewrite Rmult_assoc, Rinv_l, Rmult_1_r by lra. apply Rmult_lt_compat_r with (r := d) in X; [|exact Hd]. unfold Rdiv in X at 1. rewrite Rmult_assoc, Rinv_l in X by lra. lra.
Qed.
(** with 20000 samples, the average is within 1/10 of the prior mean with probability more than 4/5 *)
Example C91_case : exists k0, forall k, (k0 <= k)%nat ->
  prob (Walk.outs 5000) (Walk.p 5000) (2 * 5000 * k) (fun l => match run 5000 k l with Ok s' => match recorded5 Z IZR s' with Some y => negb (far (1 / 10) y 1) | None => false end | Err _ => false end) > 1 - 1 / 5.
Proof. assert (E : INR (2 * 5000) = 10000) by (rewrite mult_INR, !INR_IZR_INZ; cbn [Z.of_nat]; rewrite <- mult_IZR; reflexivity). apply enough; [apply Nat.ltb_lt; reflexivity|lra| |]; rewrite E; lra. Qed.
End Prior.
(** C91, the claim that the weighted samples of APMCABC stand for the ABC posterior fails: in the example its mean is 1/2, and so is the average over the retained particles, but the
    probability that the recorded average is within 1/10 of the prior mean 1 approaches 1 with the number of samples.  The weights of the retained particles are normalised (they sum to 1);
    those of the 2 h new ones, whose distances may be anything, are not, and sum to about 2 h. *)
Theorem C91_posterior_refuted :
  (forall h, (0 < h)%nat -> let post th := Q2R (Steps.pi th) * chance (Walk.outs h) (Walk.p h) (fun _ => nlt (Prior.dist th) Prior.eps) in
     total (map (fun th => post th * IZR th) [0; 1; 2]%Z) / total (map post [0; 1; 2]%Z) = 1 / 2 /\
     weighted IZR (p_rows (Walk.q h)) (map real (p_w (Walk.q h))) = 1 / 2) /\
  forall d, 0 < d -> exists h0, forall h, (h0 <= h)%nat -> exists k0, forall k, (k0 <= k)%nat ->
  prob (Walk.outs h) (Walk.p h) (2 * h * k) (fun l => match Prior.run h k l with Ok s' => match recorded5 Z IZR s' with Some y => negb (far (1 / 10) y 1) | None => false end | Err _ => false end) > 1 - d.
Proof.
  split; [|exact Prior.attracted]. intros h hp post. split.
  - assert (C : forall b, chance (Walk.outs h) (Walk.p h) (fun _ => b) = if b then 1 else 0) by (intros b; unfold chance; apply (expect_const _ _ _ _ (Walk.law h hp))).
    unfold post. rewrite !(Steps.three _ tt), !C, !Walk.third by (cbn; auto). change (nlt (Prior.dist 0) Prior.eps) with true. change (nlt (Prior.dist 1) Prior.eps) with true. change (nlt (Prior.dist 2) Prior.eps) with false. lra.
  - unfold weighted, Walk.q. cbn [p_rows p_w]. rewrite map_map. cbn [real].
    assert (E1 : total (map (fun _ : nat => Q2R (Walk.wq h)) (seq 0 (Walk.n h))) = 1) by (rewrite total_const_map, seq_length, (Walk.Q2R_wq h hp); pose proof (Walk.nR h hp); field; lra). rewrite E1.
    pose proof (Prior.ret h hp) as R. unfold retained in R. rewrite <- R. unfold Rdiv. rewrite Rinv_1, Rmult_1_r. clear. induction (seq 0 (Walk.n h)) as [|i l IH]; [reflexivity|]. cbn [map combine]. rewrite !total_cons, IH. reflexivity.
Qed.
Print Assumptions C91_posterior_refuted.
