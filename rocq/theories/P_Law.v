(** C74: the law of a sample of rejection ABC. *)
From Coq Require Import Reals Lra Lia.
From Verif Require Import M_Base M_Num L_Num M_Journal M_Rejection M_XReal M_Stats L_PMC S_Stats L_Stats L_Distance L_PosDef S_Law.
Open Scope R_scope.

Lemma cv_const c : Un_cv (fun _ => c) c.
Proof. intros e He. exists 0%nat. intros n _. unfold R_dist. rewrite Rminus_diag_eq by reflexivity. rewrite Rabs_R0. exact He. Qed.
Section Facts.
Variable A : Type.
Variable outs : list A.
Variable p : A -> R.
Lemma expect_ext f g : (forall a, In a outs -> f a = g a) -> expect outs p f = expect outs p g.
Proof. intros H. unfold expect. apply total_ext. intros a Ha. rewrite H by exact Ha. reflexivity. Qed.
Lemma expect_plus f g : expect outs p (fun a => f a + g a) = expect outs p f + expect outs p g.
Proof. unfold expect. rewrite <- total_plus. apply total_ext. intros a _. ring. Qed.
Lemma expect_scale k f : expect outs p (fun a => k * f a) = k * expect outs p f.
Proof. unfold expect. rewrite <- total_scale. apply total_ext. intros a _. ring. Qed.
Lemma expect_const k : Law outs p -> expect outs p (fun _ => k) = k.
Proof. intros [_ H]. unfold expect. rewrite (total_ext _ (fun a => k * p a)) by (intros; ring). rewrite total_scale, H. ring. Qed.
Lemma prob_ext k F G : (forall l, length l = k -> F l = G l) -> prob outs p k F = prob outs p k G.
Proof. revert F G. induction k as [|k IH]; intros F G H; cbn [prob]; [rewrite H by reflexivity; reflexivity|]. apply expect_ext. intros a _. apply IH. intros l Hl. apply H. cbn. lia. Qed.
Lemma prob_const k b : Law outs p -> prob outs p k (fun _ => b) = if b then 1 else 0.
Proof. intros H. induction k as [|k IH]; cbn [prob]; [reflexivity|]. rewrite (expect_ext _ (fun _ => if b then 1 else 0)) by (intros; exact IH). apply expect_const. exact H. Qed.
Lemma chance_range P : Law outs p -> 0 <= chance outs p P <= 1.
Proof.
  intros [H1 H2]. unfold chance, expect. split.
  - apply total_nonneg, Forall_forall. intros x Hx. apply in_map_iff in Hx. destruct Hx as (a & <- & Ha). specialize (H1 a Ha). destruct (P a); lra.
  - apply Rle_trans with (total (map p outs)); [|lra]. apply total_le. intros a Ha. specialize (H1 a Ha). destruct (P a); lra.
Qed.
Lemma chance_neg P : Law outs p -> chance outs p (fun a => negb (P a)) = 1 - chance outs p P.
Proof.
  intros H. assert (E : chance outs p (fun a => negb (P a)) + chance outs p P = 1); [|lra]. unfold chance. rewrite <- expect_plus. rewrite (expect_ext _ (fun _ => 1)) by (intros a _; destruct (P a); cbn; lra). apply expect_const. exact H.
Qed.
Lemma chance_le P Q : Law outs p -> (forall a, P a = true -> Q a = true) -> chance outs p P <= chance outs p Q.
Proof. intros [H1 _] H. unfold chance, expect. apply total_le. intros a Ha. specialize (H1 a Ha). specialize (H a). destruct (P a); [rewrite H by reflexivity|destruct (Q a)]; lra. Qed.
End Facts.

Section Rejection.
Variables A Y E : Type.
Variable outs : list A.
Variable p : A -> R.
Variable prior : list A -> list A * list E.
Variable sim : list E -> list A -> list A * option Y.
Variable dist : Y -> num.
Variables dist_max eps : num.
(** the parameters and the data of an attempt are given by one draw *)
Variable th : A -> list E.
Variable y : A -> option Y.
Hypothesis one_draw : forall a l, exists r, prior (a :: l) = (r, th a) /\ sim (th a) r = (l, y a).
Hypothesis law : Law outs p.
(** the loop is entered *)
Hypothesis enters : nlt eps dist_max = true.
Definition distance_of (a : A) : num := match y a with Some d => dist d | None => dist_max end.
Definition accepted (a : A) : bool := negb (nlt eps (distance_of a)).
Notation sample_parameter := (sample_parameter (list A) Y E prior sim dist dist_max).
Notation sp_loop := (sp_loop (list A) Y E prior sim dist dist_max).

Lemma attempt_draw a l : attempt (list A) Y E prior sim dist dist_max (a :: l) = (l, th a, distance_of a).
Proof. unfold attempt. destruct (one_draw a l) as (r & -> & ->). reflexivity. Qed.
Definition result_is (T : list E -> num -> nat -> bool) (r : res (list E * num * nat)) : bool := match r with Ok (t, d, c) => T t d c | Err _ => false end.
Fixpoint upto (k : nat) (f : nat -> R) : R := match k with O => 0 | S k' => upto k' f + f k' end.
Lemma upto_first k f : upto (S k) f = f O + upto k (fun i => f (S i)).
Proof. induction k as [|k IH]; [cbn; lra|]. change (upto (S (S k)) f) with (upto (S k) f + f (S k)). rewrite IH. cbn [upto]. lra. Qed.
Lemma upto_scale k c f : upto k (fun i => c * f i) = c * upto k f.
Proof. induction k as [|k IH]; cbn [upto]; [lra|rewrite IH; lra]. Qed.
Lemma upto_ext k f g : (forall i, (i < k)%nat -> f i = g i) -> upto k f = upto k g.
Proof. intros H. induction k as [|k IH]; cbn [upto]; [reflexivity|]. rewrite IH by (intros; apply H; lia). rewrite H by lia. reflexivity. Qed.

Lemma loop_law (T : list E -> num -> nat -> bool) k : forall t0 d0 c, nlt eps d0 = true ->
  prob outs p k (fun l => result_is T (sp_loop eps k l t0 d0 c)) =
  upto k (fun i => (1 - chance outs p accepted) ^ i * chance outs p (fun a => accepted a && T (th a) (distance_of a) (S (c + i)))).
Proof.
  induction k as [|k IH]; intros t0 d0 c H0.
  - cbn [prob upto]. cbn [M_Rejection.sp_loop]. rewrite H0. reflexivity.
  - cbn [prob]. rewrite upto_first. cbn [pow]. rewrite Rmult_1_l.
    set (V := upto k (fun i => (1 - chance outs p accepted) ^ i * chance outs p (fun a => accepted a && T (th a) (distance_of a) (S (S c + i))))).
    rewrite (expect_ext _ _ _ _ (fun a => (if accepted a && T (th a) (distance_of a) (S c) then 1 else 0) + V * (if negb (accepted a) then 1 else 0))).
    + rewrite expect_plus, expect_scale. fold (chance outs p (fun a => accepted a && T (th a) (distance_of a) (S c))) (chance outs p (fun a => negb (accepted a))). rewrite chance_neg by exact law.
      rewrite Nat.add_0_r. f_equal. rewrite Rmult_comm. unfold V. rewrite <- upto_scale. apply upto_ext. intros i _. replace (S (c + S i)) with (S (S c + i)) by lia. ring.
    + intros a _. rewrite (prob_ext _ _ _ k _ (fun l => result_is T (sp_loop eps k l (Some (th a)) (distance_of a) (S c)))).
      2:{ intros l _. cbn [M_Rejection.sp_loop]. rewrite H0, attempt_draw. reflexivity. }
      unfold accepted. destruct (nlt eps (distance_of a)) eqn:Ea; cbn [negb andb].
      * rewrite (IH (Some (th a)) (distance_of a) (S c) Ea). fold accepted V. lra.
      * rewrite (prob_ext _ _ _ k _ (fun _ => T (th a) (distance_of a) (S c))).
        -- rewrite prob_const by exact law. destruct (T (th a) (distance_of a) (S c)); lra.
        -- intros l _. destruct k; cbn [M_Rejection.sp_loop]; rewrite Ea; reflexivity.
Qed.
(** C74 (joint law): a worker with k draws at its disposal returns its sample at attempt i+1 with probability (1 - a)^i times the
    probability that a prior draw is accepted and has the property asked for, where a is the acceptance probability. *)
Theorem C74_joint : forall (T : list E -> num -> nat -> bool) k,
  prob outs p k (fun l => result_is T (sample_parameter eps k l)) =
  upto k (fun i => (1 - chance outs p accepted) ^ i * chance outs p (fun a => accepted a && T (th a) (distance_of a) (i + 1)%nat)).
Proof. intros T k. unfold M_Rejection.sample_parameter. rewrite (loop_law T k None dist_max 0 enters). apply upto_ext. intros i _. replace (S (0 + i)) with (i + 1)%nat by lia. reflexivity. Qed.
Lemma upto_pow r k : (1 - r) * upto k (fun i => r ^ i) = 1 - r ^ k.
Proof. induction k as [|k IH]; cbn [upto pow]; [lra|]. rewrite Rmult_plus_distr_l, IH. ring. Qed.
(** C74 (law of the sample): the law of the returned parameters and distance is the law of a prior draw with its simulation,
    conditioned on acceptance: exactly so among the runs that end within k attempts, and in the limit of all runs. *)
Theorem C74_conditional : forall (T : list E -> num -> bool), 0 < chance outs p accepted ->
  (forall k, prob outs p k (fun l => result_is (fun t d _ => T t d) (sample_parameter eps k l)) =
    chance outs p (fun a => accepted a && T (th a) (distance_of a)) / chance outs p accepted * (1 - (1 - chance outs p accepted) ^ k)) /\
  Un_cv (fun k => prob outs p k (fun l => result_is (fun t d _ => T t d) (sample_parameter eps k l)))
    (chance outs p (fun a => accepted a && T (th a) (distance_of a)) / chance outs p accepted).
Proof.
  intros T Ha. set (q := chance outs p accepted) in *. set (c := chance outs p (fun a => accepted a && T (th a) (distance_of a))).
  assert (E1 : forall k, prob outs p k (fun l => result_is (fun t d _ => T t d) (sample_parameter eps k l)) = c / q * (1 - (1 - q) ^ k)).
  { intros k. rewrite C74_joint. fold q. rewrite (upto_ext k _ (fun i => c * (1 - q) ^ i)) by (intros i _; fold c; ring). rewrite upto_scale.
    pose proof (upto_pow (1 - q) k) as X. replace (1 - (1 - q)) with q in X by ring. rewrite <- X. set (V := upto k _). field. lra. }
  split; [exact E1|]. apply (Un_cv_ext (fun k => c / q * (1 - (1 - q) ^ k))); [intros k; symmetry; apply E1|].
  replace (c / q) with (c / q * (1 - 0)) at 1 by ring. apply CV_mult; [apply cv_const|]. apply CV_minus; [apply cv_const|].
  assert (X : Rabs (1 - q) < 1) by (pose proof (chance_range _ outs p accepted law) as [_ Y1]; fold q in Y1; rewrite Rabs_right; lra).
  intros e He. destruct (pow_lt_1_zero (1 - q) X e He) as (n0 & Hn). exists n0. intros n Hn0. unfold R_dist. rewrite Rminus_0_r. apply Hn. exact Hn0.
Qed.
(** C74 (number of simulations): the number of simulations has the geometric law and does not depend on the sample. *)
Theorem C74_count : forall (T : list E -> num -> bool) k m, (m < k)%nat ->
  prob outs p k (fun l => result_is (fun t d c => T t d && (c =? m + 1)%nat) (sample_parameter eps k l)) =
  (1 - chance outs p accepted) ^ m * chance outs p (fun a => accepted a && T (th a) (distance_of a)).
Proof.
  intros T k m Hm. rewrite C74_joint. set (q := 1 - chance outs p accepted). set (c := chance outs p (fun a => accepted a && T (th a) (distance_of a))).
  rewrite (upto_ext k _ (fun i => if (i =? m)%nat then q ^ m * c else 0)).
  - clear - Hm. induction k as [|k IH]; [lia|]. cbn [upto]. destruct (Nat.eq_dec m k) as [->|Ne].
    + rewrite Nat.eqb_refl. rewrite (upto_ext k _ (fun _ => 0)) by (intros i Hi; destruct (Nat.eqb_spec i k); [lia|reflexivity]). enough (upto k (fun _ => 0) = 0) by lra. clear. induction k; cbn [upto]; lra.
    + rewrite IH by lia. destruct (Nat.eqb_spec k m); [lia|lra].
  - intros i _. destruct (Nat.eqb_spec i m) as [->|Ne].
    + f_equal. unfold c, chance. apply expect_ext. intros a _. rewrite Nat.eqb_refl, Bool.andb_true_r. reflexivity.
    + unfold chance. rewrite (expect_ext _ _ _ _ (fun _ => 0)); [rewrite expect_const by exact law; ring|]. intros a _. destruct (Nat.eqb_spec (i + 1) (m + 1)); [lia|]. rewrite !Bool.andb_false_r. reflexivity.
Qed.
(** C74 (end of the loop): the probability that k attempts are not enough is the k-th power of the rejection probability; the loop never raises. *)
Theorem C74_unfinished : forall k, prob outs p k (fun l => match sample_parameter eps k l with Err OutOfFuel => true | _ => false end) = (1 - chance outs p accepted) ^ k
  /\ prob outs p k (fun l => match sample_parameter eps k l with Err OutOfFuel => false | Err _ => true | _ => false end) = 0.
Proof.
  intros k. split.
  - unfold M_Rejection.sample_parameter. assert (X : forall k t0 d0 c, nlt eps d0 = true -> prob outs p k (fun l => match sp_loop eps k l t0 d0 c with Err OutOfFuel => true | _ => false end) = (1 - chance outs p accepted) ^ k); [|apply X; exact enters].
    clear k. induction k as [|k IH]; intros t0 d0 c H0; cbn [prob pow]; [cbn [M_Rejection.sp_loop]; rewrite H0; reflexivity|].
    rewrite (expect_ext _ _ _ _ (fun a => (1 - chance outs p accepted) ^ k * (if negb (accepted a) then 1 else 0))).
    + rewrite expect_scale. fold (chance outs p (fun a => negb (accepted a))). rewrite chance_neg by exact law. ring.
    + intros a _. rewrite (prob_ext _ _ _ k _ (fun l => match sp_loop eps k l (Some (th a)) (distance_of a) (S c) with Err OutOfFuel => true | _ => false end)).
      2:{ intros l _. cbn [M_Rejection.sp_loop]. rewrite H0, attempt_draw. reflexivity. }
      unfold accepted. destruct (nlt eps (distance_of a)) eqn:Ea; cbn [negb].
      * rewrite (IH _ _ _ Ea). fold accepted. lra.
      * rewrite (prob_ext _ _ _ k _ (fun _ => false)); [rewrite prob_const by exact law; lra|]. intros l _. destruct k; cbn [M_Rejection.sp_loop]; rewrite Ea; reflexivity.
  - unfold M_Rejection.sample_parameter. assert (X : forall k l t0 d0 c, (length l = k)%nat -> (t0 <> None \/ nlt eps d0 = true) -> match sp_loop eps k l t0 d0 c with Err OutOfFuel => false | Err _ => true | _ => false end = false).
    { clear k. induction k as [|k IH]; intros l t0 d0 c Hl H0; cbn [M_Rejection.sp_loop]; destruct (nlt eps d0) eqn:Ed; try reflexivity; try (destruct t0; [reflexivity|destruct H0; congruence]).
      destruct l as [|a l]; [discriminate|]. rewrite attempt_draw. apply IH; [cbn in Hl; lia|left; discriminate]. }
    rewrite (prob_ext _ _ _ k _ (fun _ => false)); [apply prob_const; exact law|]. intros l Hl. apply X; [exact Hl|right; exact enters].
Qed.
End Rejection.
Print Assumptions C74_joint.
Print Assumptions C74_conditional.
Print Assumptions C74_count.
Print Assumptions C74_unfinished.

(** A case: prior uniform on {0,1,2,3}, the simulator repeats the parameter or (half of the time) adds one; distance to 0, threshold 1. *)
Definition dice_outs : list (nat * nat) := list_prod [0; 1; 2; 3]%nat [0; 1]%nat.
Definition dice_prior (l : list (nat * nat)) : list (nat * nat) * list nat := (l, [fst (hd (0, 0)%nat l)]).
Definition dice_sim (t : list nat) (l : list (nat * nat)) : list (nat * nat) * option nat := (tl l, Some (hd 0%nat t + snd (hd (0, 0)%nat l))%nat).
Definition dice_dist (y : nat) : num := Fin (inject_Z (Z.of_nat y)).
Example dice_law : Law dice_outs (fun _ => 1 / 8).
Proof. split; [intros; lra|]. unfold dice_outs, total. cbn. lra. Qed.
(** accepted: (0,0), (0,1) and (1,0); the sample is 0 with probability 2/3 *)
Example dice_case : Un_cv (fun k => prob dice_outs (fun _ => 1 / 8) k (fun l => result_is _ (fun t _ _ => (hd 9 t =? 0)%nat) (sample_parameter _ nat nat dice_prior dice_sim dice_dist PInf (Fin 1) k l))) (2 / 3).
Proof.
  assert (X := C74_conditional (nat * nat) nat nat dice_outs (fun _ => 1 / 8) dice_prior dice_sim dice_dist PInf (Fin 1) (fun a => [fst a]) (fun a => Some (fst a + snd a)%nat)
    (fun a l => ex_intro _ (a :: l) (conj eq_refl eq_refl)) dice_law eq_refl (fun t _ => (hd 9 t =? 0)%nat)).
  assert (E1 : chance dice_outs (fun _ => 1 / 8) (accepted (nat * nat) nat dice_dist PInf (Fin 1) (fun a => Some (fst a + snd a)%nat)) = 3 / 8) by (unfold chance, expect, dice_outs, total; cbn; lra).
  assert (E2 : chance dice_outs (fun _ => 1 / 8) (fun a => accepted (nat * nat) nat dice_dist PInf (Fin 1) (fun a => Some (fst a + snd a)%nat) a && (hd 9 [fst a] =? 0)%nat) = 2 / 8) by (unfold chance, expect, dice_outs, total; cbn; lra).
  rewrite E1, E2 in X. destruct X as [_ X]; [lra|]. replace (2 / 3) with (2 / 8 / (3 / 8)) by lra. exact X.
Qed.
