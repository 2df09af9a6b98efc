(** C44: with several observed models no data is returned. *)
From Coq Require Import Permutation.
From Verif Require Import M_Base M_Num M_Graph S_Graph L_Graph L_Graph2 L_Graph4 M_GraphEx M_Journal L_Journal2 M_Infer M_Generate P_Generate.
Open Scope nat_scope.

Lemma simulated_length g v k rs : forall c l, simulated g v k rs c = Some l -> length l = length rs.
Proof.
  induction rs as [|r rs IH]; intros c l H; cbn [simulated] in H; [injection H as <-; reflexivity|]. destruct (gchk_in g r _); [|discriminate]. destruct (simulated g v k rs (S c)) as [l'|] eqn:E; [|discriminate].
  injection H as <-. cbn. f_equal. exact (IH _ _ E).
Qed.
(** The data sets are reshaped to (samples, data points, entries): generate succeeds only with one observed model, and never drops the data of others. *)
Theorem C44_single :
  forall g, wf g -> forall roots big, indep g roots -> plain g roots ->
  forall Name (Cl : Type) S C D (cleqb : Cl -> Cl -> bool) tm names (j : journal Name (list Q) S C D) it k discard start sched ws base out acc w,
  (forall x, good g roots base (ws x)) -> get_accepted_parameters j it = Ok acc -> get_weights j it = Ok w ->
  Permutation (map snd sched) (seq 0 (length (wvals w))) -> (forall theta, In theta acc -> acceptable g roots base theta) ->
  generate g roots big cleqb tm names j it k discard start sched ws = Ok out -> length roots = 1.
Proof.
  intros g Hwf roots big Hi Hpl Name Cl Sx C D cleqb tm names j it k discard start sched ws base out acc w Hws Ha Hw Hp Hacc E.
  assert (Hh : forall r, In r roots -> is_hyper g r = false). { intros r' Hr. pose proof (proj1 (Hpl r' Hr)) as H. unfold is_free in H. destruct (is_hyper g r'); [discriminate | reflexivity]. }
  unfold generate in E. destruct tm as [tm|]; [|discriminate]. destruct (negb (cleqb tm names)); [discriminate|]. rewrite Ha, Hw in E. cbv zeta in E. rewrite map_length in E.
  set (task := fun i => sample_parameter g roots big k discard acc (start i) i) in *.
  destruct (collect (execute task sched ws) (length (wvals w))) as [ys|e] eqn:Ey; [|discriminate]. destruct (params_array acc) as [ps'|e] eqn:Ep; [|discriminate]. destruct (sims_array ys) as [sims'|e] eqn:Es; [|discriminate]. clear E.
  unfold collect in Ey. apply mapR_Ok in Ey. pose proof (F2_len' _ _ _ Ey) as Ly. rewrite seq_length in Ly.
  unfold sims_array in Es. destruct (mapR one_model ys) as [l|e] eqn:El; [|discriminate]. destruct l as [|rows l]; [discriminate|]. apply mapR_Ok in El. inversion El as [|y ? ys' ? Hom Hrest]; subst. clear Es El Hrest.
  pose proof (F2_seq _ _ 0 _ Ey 0 y eq_refl) as Hf. cbn [Nat.add] in Hf.
  assert (Hin : In 0 (map snd sched)). { apply (Permutation_in _ (Permutation_sym Hp)). apply in_seq. cbn in Ly. lia. }
  destruct (execute_In task (good g roots base) (fun i r => forall y, r = Ok y -> exists theta, nth_error acc i = Some theta /\ y = simulated g (assign (order g roots) theta base) k roots (start i)) sched) with (ws := ws) (i := 0) as (q & Hq & HQ); [|exact Hws|exact Hin|].
  - intros i' s _ Hg. unfold task. destruct (nth_error acc i') as [theta|] eqn:Et.
    + destruct (sample_parameter_spec g roots big k discard acc (start i') i' theta base s Hwf Hi Hpl Hh Hg Et (Hacc theta (nth_error_In _ _ Et))) as (G1 & G2). split; [exact G1|]. intros y' Hy'. exists theta. split; [reflexivity|]. rewrite G2 in Hy'. cbv zeta in Hy'. destruct (discard && big _); congruence.
    + unfold sample_parameter. rewrite Et. split; [exact Hg|]. cbn. discriminate.
  - rewrite (find_In (execute task sched ws) 0) with (r := q) in Hf; [| |exact Hq].
    + destruct (HQ y Hf) as (theta & _ & Hy). destruct y as [[|[rows'|] [|o2 l2]]|]; try discriminate. symmetry in Hy. apply simulated_length in Hy. cbn in Hy. congruence.
    + rewrite execute_fst. apply (Permutation_NoDup (Permutation_sym Hp)), seq_NoDup.
Qed.
Print Assumptions C44_single.
(** Two observed models: refused.  (One: C44_case.) *)
Example C44_single_case : one_model (Some [Some [[1]%Q]; Some [[2]%Q]]) = Err ValueError /\ one_model (Some [Some [[1]%Q]]) = Ok [[1]%Q].
Proof. split; reflexivity. Qed.
