(** C90: averages over the samples of rejection ABC approach the posterior expectation although workers can share a seed. *)
From Coq Require Import Reals Lra Lia Qreals.
From Verif Require Import M_Base M_Num L_Num M_Journal M_Rejection S_Rejection L_Rejection M_Seeds M_PMCABC M_XReal M_Stats L_PMC S_Stats L_Stats L_Distance L_PosDef S_Law P_Law L_Law L_Gen L_Series S_Consist L_LLN L_Workers P_Consist S_Collide P_Collide L_Shared.
Open Scope R_scope.

Lemma squeeze (u v w : nat -> R) L Bd : (forall k, Rabs (u k - v k) <= Bd * (1 - w k)) -> Un_cv v L -> Un_cv w 1 -> Un_cv u L.
Proof.
  intros H Hv Hw. assert (Z : Un_cv (fun k => Bd * (1 - w k)) 0).
  { replace 0 with (Bd * (1 - 1)) by ring. apply CV_mult; [apply cv_const|]. apply CV_minus; [apply cv_const|exact Hw]. }
  intros e He. destruct (Hv (e / 2) ltac:(lra)) as (k1 & K1). destruct (Z (e / 2) ltac:(lra)) as (k2 & K2). exists (max k1 k2). intros k Hk. specialize (K1 k ltac:(lia)). specialize (K2 k ltac:(lia)). specialize (H k). unfold R_dist in *.
  replace (u k - L) with ((u k - v k) + (v k - L)) by ring. eapply Rle_lt_trans; [apply Rabs_triang|]. rewrite Rminus_0_r in K2. pose proof (Rle_abs (Bd * (1 - w k))). lra.
Qed.
Lemma mapT_each {X} (w : nat -> unit -> res (X * unit)) : forall m a ys, mapT w (seq a m) tt = Ok (ys, tt) -> forall i, (i < m)%nat -> exists y, w (a + i)%nat tt = Ok (y, tt) /\ nth_error ys i = Some y.
Proof.
  induction m as [|m IH]; intros a ys H i Hi; [lia|]. cbn [seq mapT] in H. destruct (w a tt) as [[y []]|] eqn:E; [|discriminate]. destruct (mapT w (seq (S a) m) tt) as [[zs []]|] eqn:M; [|discriminate]. injection H as <-.
  destruct i as [|i]; [exists y; rewrite Nat.add_0_r; auto|]. destruct (IH (S a) zs M i ltac:(lia)) as (z & Hz & Hn). exists z. rewrite Nat.add_succ_r. auto.
Qed.
Lemma mapT_chosen {X S} (f : X -> R) (w : nat -> unit -> res (X * unit)) (idx : S -> nat) ys seeds : (forall s, In s seeds -> exists y, w (idx s) tt = Ok (y, tt) /\ nth_error ys (idx s) = Some y) ->
  exists zs, mapT (fun s => w (idx s)) seeds tt = Ok (zs, tt) /\ map f zs = map (fun s => nth (idx s) (map f ys) 0) seeds.
Proof.
  induction seeds as [|s seeds IH]; intros H; [exists []; split; reflexivity|]. destruct (H s (or_introl eq_refl)) as (y & Hy & Hn). destruct IH as (zs & Hz & Hm); [intros; apply H; right; assumption|].
  exists (y :: zs). cbn [mapT]. rewrite Hy, Hz. split; [reflexivity|]. cbn [map]. f_equal; [|exact Hm]. symmetry. apply nth_error_nth. rewrite nth_error_map, Hn. reflexivity.
Qed.
Lemma average_bound M l : 0 <= M -> (forall x, In x l -> Rabs x <= M) -> Rabs (average l) <= M.
Proof.
  intros H0 H. unfold average. destruct l as [|x l]; [unfold total; cbn; unfold Rdiv; rewrite Rmult_0_l, Rabs_R0; exact H0|]. set (k := length (x :: l)) in *. assert (HK : 0 < INR k) by (apply lt_0_INR; cbn; lia).
  assert (T : Rabs (total (x :: l)) <= INR k * M).
  { subst k. clear HK. induction (x :: l) as [|y t IH]; [unfold total; cbn; rewrite Rabs_R0; lra|]. rewrite total_cons. cbn [length]. rewrite S_INR. eapply Rle_trans; [apply Rabs_triang|]. pose proof (H y (or_introl eq_refl)). specialize (IH (fun z Hz => H z (or_intror Hz))). lra. }
  unfold Rdiv. rewrite Rabs_mult, (Rabs_right (/ INR k)) by (left; apply Rinv_0_lt_compat, HK). apply Rmult_le_reg_r with (INR k); [exact HK|]. rewrite Rmult_assoc, Rinv_l by lra. lra.
Qed.

Section Rejection.
Variables A Y E Name : Type.
Variable neqb : Name -> Name -> bool.
Variable outs : list A.
Variable p : A -> R.
Variable prior : list A -> list A * list E.
Variable sim : list E -> list A -> list A * option Y.
Variable dist : Y -> num.
Variables dist_max eps : num.
Variable cols : list (Name * (list E -> E)).
(** the parameters and the data of an attempt are given by one draw *)
Variable th : A -> list E.
Variable y : A -> option Y.
Hypothesis one_draw : forall a l, exists r, prior (a :: l) = (r, th a) /\ sim (th a) r = (l, y a).
Hypothesis law : Law outs p.
Hypothesis enters : nlt eps dist_max = true.
Hypothesis some : 0 < chance outs p (accepted A Y dist dist_max eps y).
Notation post := (posterior A Y outs p dist dist_max eps y).
Notation worker := (worker A Y E prior sim dist dist_max eps).
Let plaw : Law outs post := posterior_law A Y outs p dist dist_max eps y law some.
Variables n full counter0 : nat.
Hypothesis n_range : (2 <= Z.of_nat n <= 46340)%Z.
Hypothesis full_range : full = 0%nat \/ full = 1%nat.
Variable f : list E -> R.
(** the seeds are drawn from 1 .. n*n - 1 (inferences.py:580) *)
Notation m := (n * n - 1)%nat.
Notation over_seeds := (mean (ints 1 m) (even m) n).

(** the journal of a run with the given seeds, when every seed has its own k draws *)
Definition run (k : nat) (seeds : list Z) (l : list A) : res (jrn E Name) :=
  M_Rejection.sample (list A) Y E Name neqb prior sim (fun s => chunk k (Z.to_nat s - 1) l) dist dist_max cols (Some n) None (Some eps) None full seeds k counter0.

Lemma run_seeds k seeds l (F : option R -> R) : length seeds = n ->
  match run k seeds l with Ok j => F (estimate f j) | Err _ => 0 end = match mapT (fun s c => worker k (chunk k (Z.to_nat s - 1) l) c) seeds tt with Ok (ys, _) => F (Some (average (map f ys))) | Err _ => 0 end.
Proof.
  intros Hs. unfold run, M_Rejection.sample. cbn [negb Bool.eqb andb orb]. assert (Hnew : exists j0, new (Name := Name) (E := E) (S := unit) (C := unit) (D := list num) full = Ok j0) by (unfold new; destruct full_range as [-> | ->]; eexists; reflexivity).
  destruct Hnew as (j0 & Hnew). rewrite Hnew. unfold sample_n_samples_epsilon. assert (Hsq : (4 <= Z.of_nat n * Z.of_nat n <= 46340 * 46340)%Z) by nia. destruct (Z.leb_spec (Z.of_nat n * Z.of_nat n) 1); [lia|]. destruct (Z.ltb_spec (2 ^ 31) (Z.of_nat n * Z.of_nat n)); [lia|]. cbn [orb].
  pose proof (mapR_T (fun seed => sample_parameter (list A) Y E prior sim dist dist_max eps k (chunk k (Z.to_nat seed - 1) l)) (fun r => fst (fst r)) seeds) as M.
  rewrite (mapT_ext _ (fun s c => worker k (chunk k (Z.to_nat s - 1) l) c)) in M.
  2:{ intros i c _. unfold P_Consist.worker. destruct (sample_parameter _ _ _ _ _ _ _ _ _ _) as [[[t d] q]|]; reflexivity. }
  rewrite <- M. destruct (mapR _ seeds) as [rs|] eqn:Em; [|reflexivity].
  match goal with |- F (estimate f (with_conf _ _ (adds _ _ [AddAcc ?rows; AddW _; AddEss _; AddDist ?ds; AddUser ?ks]) ?ns _ _)) = _ => destruct (read_back E Name neqb j0 rows n ds ks true full Hnew ns (Some n) true) as (R1 & R2 & _) end.
  unfold estimate. cbn [j_nsamples j_hasmodel with_conf] in *. rewrite R1, R2. cbn [ones]. f_equal. f_equal.
  assert (Hl : length (map (fun r => fst (fst r)) rs) = n) by (rewrite map_length; apply mapR_length in Em; congruence). rewrite <- Hl. apply weighted_ones.
Qed.
(** any bounded quantity of the journal's average: workers that share a seed share an entry of a table of independent samples of the posterior *)
Lemma run_limit (F : option R -> R) Bd : (forall xs, (forall x, In x xs -> x = 0 \/ exists t, x = f t) -> Rabs (F (Some (average xs))) <= Bd) ->
  Un_cv (fun k => over_seeds (fun seeds => mean outs p (m * k) (fun l => match run k seeds l with Ok j => F (estimate f j) | Err _ => 0 end)))
        (over_seeds (fun seeds => mean outs post m (fun tab => F (Some (average (map (entry (map (fun a => f (th a)) tab)) seeds)))))).
Proof.
  intros HB. apply (mean_cv_in (ints 1 m) (even m) n (fun k seeds => mean outs p (m * k) (fun l => match run k seeds l with Ok j => F (estimate f j) | Err _ => 0 end))). intros seeds Hs Hi.
  assert (B0 : 0 <= Bd) by (eapply Rle_trans; [apply Rabs_pos|apply (HB []); intros x []]).
  pose (H := fun ys : list (list E) => F (Some (average (map (entry (map f ys)) seeds)))).
  pose proof (workers_law A outs p law (list E) unit A outs post (fun a => (th a, tt)) worker (worker_law A Y E outs p prior sim dist dist_max eps th y one_draw law enters some)) as W.
  assert (HH : forall ys, Rabs (H ys) <= Bd).
  { intros ys. apply HB. intros x Hx. apply in_map_iff in Hx. destruct Hx as (s & <- & _). unfold entry. destruct (nth_in_or_default (Z.to_nat s - 1) (map f ys) 0) as [I|I]; [|left; exact I]. apply in_map_iff in I. destruct I as (t & <- & _). right. exists t. reflexivity. }
  apply (squeeze _ (fun k => all_workers A outs p (list E) unit worker H m k tt) (fun k => all_workers A outs p (list E) unit worker (fun _ => 1) m k tt) _ Bd).
  - intros k. unfold all_workers.
    match goal with |- Rabs (mean _ _ _ ?u - mean _ _ _ ?v) <= Bd * (1 - mean _ _ _ ?w) =>
      replace (mean outs p (m * k) u - mean outs p (m * k) v) with (mean outs p (m * k) (fun l => u l + -1 * v l)) by (rewrite (mean_plus _ outs p), (mean_scale _ outs p); ring);
      replace (Bd * (1 - mean outs p (m * k) w)) with (mean outs p (m * k) (fun l => Bd + - Bd * w l)) by (rewrite (mean_plus _ outs p), (mean_scale _ outs p), (mean_const _ outs p law); ring) end.
    apply (mean_abs _ outs p law). intros l _. rewrite (run_seeds k seeds l F Hs).
    destruct (mapT (fun i c => worker k (chunk k i l) c) (seq 0 m) tt) as [[ys []]|] eqn:T.
    + destruct (mapT_chosen f (fun i c => worker k (chunk k i l) c) (fun s => (Z.to_nat s - 1)%nat) ys seeds) as (zs & Hz & Hm).
      { intros s Hs'. apply (mapT_each _ m 0 ys T). apply Hi, ints_In in Hs'. lia. }
      rewrite Hz, Hm. unfold H, entry. match goal with |- Rabs (?x + -1 * ?x') <= _ => replace (x + -1 * x') with 0 by ring end. rewrite Rabs_R0. lra.
    + rewrite !Rmult_0_r, !Rplus_0_r. destruct (mapT _ seeds tt) as [[zs c]|]; [|rewrite Rabs_R0; exact B0]. apply HB. intros x Hx. apply in_map_iff in Hx. destruct Hx as (t & <- & _). right. exists t. reflexivity.
  - eapply cv_limit; [|apply (W m H Bd tt HH)]. apply mean_ext. intros tab _. unfold H. cbn [fst]. rewrite map_map. reflexivity.
  - eapply cv_limit; [|apply (W m (fun _ => 1) 1 tt); intros; rewrite Rabs_R1; lra]. apply (mean_const _ outs post plaw).
Qed.
Lemma m_INR : 0 < INR n /\ (0 < m)%nat /\ (0 < n)%nat /\ 1 + (INR n - 1) / INR m = 1 + / (INR n + 1).
Proof.
  assert (M : (1 <= n * n)%nat) by nia. assert (N : (2 <= n)%nat) by lia. apply le_INR in N. cbn [INR] in N. split; [lra|]. split; [nia|]. split; [lia|]. rewrite minus_INR, mult_INR by exact M. cbn [INR]. field. split; nra.
Qed.
(** the seeds among which the code draws *)
Notation drawn := (randint_values (square_range n)).
Lemma drawn_ints : drawn = ints 1 m. Proof. apply square_ints. lia. Qed.
Lemma drawn_alike : alike drawn = even m. Proof. apply square_ints. lia. Qed.
Lemma drawn_length : length drawn = m. Proof. rewrite drawn_ints. apply ints_length. Qed.
(** C90 (probability): in spite of the shared seeds, the average of f over the journal is more than e away from its posterior expectation with a probability (over the
    seeds and the draws each seed stands for) that has a limit of at most Var(f) / (n e^2) times 1 + 1/(n+1); the probability that there is a journal tends to 1 *)
Theorem C90_rejection : forall e, 0 < e -> let c := expect outs post (fun a => f (th a)) in
  (exists v, Un_cv (fun k => mean drawn (alike drawn) n (fun seeds => prob outs p (length drawn * k) (fun l => match run k seeds l with Ok j => match estimate f j with Some x => far e x c | None => true end | Err _ => false end))) v
     /\ v <= variance outs post (fun a => f (th a)) / (INR n * e ^ 2) * (1 + / (INR n + 1))) /\
  Un_cv (fun k => mean drawn (alike drawn) n (fun seeds => prob outs p (length drawn * k) (fun l => match run k seeds l with Ok _ => true | Err _ => false end))) 1.
Proof.
  intros e He c. destruct m_INR as (HN & HM & Hn & HE). rewrite drawn_length, drawn_alike, drawn_ints. split.
  - pose (F := fun o : option R => if match o with Some x => far e x c | None => true end then 1 else 0).
    exists (over_seeds (fun seeds => mean outs post m (fun tab => F (Some (average (map (entry (map (fun a => f (th a)) tab)) seeds)))))). split.
    + eapply cv_ext; [|apply (run_limit F 1)].
      * intros k. cbv beta. apply mean_ext. intros seeds _. rewrite (prob_mean A outs p). apply mean_ext. intros l _. unfold F. destruct (run k seeds l) as [j|]; [destruct (estimate f j)|]; reflexivity.
      * intros xs _. unfold F. destruct (far _ _ _); [rewrite Rabs_R1|rewrite Rabs_R0]; lra.
    + rewrite <- HE. apply (shared_far A outs post plaw m HM (fun a => f (th a)) n e Hn He).
  - eapply cv_ext; [|eapply cv_limit; [|apply (run_limit (fun _ => 1) 1)]].
    + intros k. cbv beta. apply mean_ext. intros seeds _. rewrite (prob_mean A outs p). apply mean_ext. intros l _. destruct (run k seeds l); reflexivity.
    + rewrite (mean_ext _ _ _ _ _ (fun _ => 1)) by (intros; apply (mean_const _ outs post plaw)). apply (mean_const _ _ _ (even_law Z (ints 1 m) m (ints_length 1 m) HM)).
    + intros xs _. rewrite Rabs_R1. lra.
Qed.
(** C90 (what the shared seeds cost): for a bounded f the mean square error tends to exactly Var(f) / n times 1 + 1/(n+1), where independent workers would have Var(f) / n *)
Theorem C90_cost : forall M, (forall t, Rabs (f t) <= M) -> let c := expect outs post (fun a => f (th a)) in
  Un_cv (fun k => mean drawn (alike drawn) n (fun seeds => mean outs p (length drawn * k) (fun l => match run k seeds l with Ok j => match estimate f j with Some x => (x - c) ^ 2 | None => 0 end | Err _ => 0 end)))
        (variance outs post (fun a => f (th a)) / INR n * (1 + / (INR n + 1))).
Proof.
  intros M HM c. destruct m_INR as (HN & Hm & Hn & HE). rewrite drawn_length, drawn_alike, drawn_ints. rewrite <- HE, <- (shared_error A outs post plaw m Hm (fun a => f (th a)) n Hn). fold c.
  pose (F := fun o : option R => match o with Some x => (x - c) ^ 2 | None => 0 end).
  apply (run_limit F ((Rabs M + Rabs c) ^ 2)). intros xs Hx. unfold F. rewrite Rabs_right by (apply Rle_ge, pow2_ge_0). rewrite <- (pow2_abs (_ - c)). apply pow_incr. split; [apply Rabs_pos|].
  unfold Rminus. eapply Rle_trans; [apply Rabs_triang|]. rewrite Rabs_Ropp. apply Rplus_le_compat_r. apply average_bound; [apply Rabs_pos|]. intros x Hi. destruct (Hx x Hi) as [-> | (t & ->)]; [rewrite Rabs_R0; apply Rabs_pos|]. eapply Rle_trans; [apply HM|apply Rle_abs].
Qed.
End Rejection.
Print Assumptions C90_rejection.
Print Assumptions C90_cost.
(** Case: the uniform prior on 0, ..., 4 of C86, of which at most 2 are accepted.  With 120 samples the mean is estimated up to 1/2 except with a probability of at most
    1/40 in the limit; with 2 samples and the indicator of 0 the mean square error is 4/27, where independent workers would have 1/9. *)
Module Five4.
Import Five.
Definition run4 := P_Consist4.run nat nat nat unit (fun _ _ => true) prior sim dist PInf (Fin 2) [].
Definition ind (row : list nat) : R := if (hd 0 row =? 0)%nat then 1 else 0.
Lemma some : 0 < chance outs p (accepted nat nat dist PInf (Fin 2) Some).
Proof. rewrite acc. lra. Qed.
Example C90_case : exists v, v <= 1 / 40 /\ Un_cv (fun k => mean (randint_values (1, 14400)%Z) (alike (randint_values (1, 14400)%Z)) 120 (fun seeds => prob outs p (length (randint_values (1, 14400)%Z) * k)
  (fun l => match run4 120 0 0 k seeds l with Ok j => match estimate f j with Some x => far (1 / 2) x 1 | None => true end | Err _ => false end))) v.
Proof.
  destruct values as [V1 V2].
  pose proof (C90_rejection nat nat nat unit (fun _ _ => true) outs p prior sim dist PInf (Fin 2) [] (fun a => [a]) Some (fun a l => ex_intro _ (a :: l) (conj eq_refl eq_refl)) law eq_refl some 120 0 0
    ltac:(split; apply Z.leb_le; reflexivity) (or_introl eq_refl) f (1 / 2) ltac:(lra)) as X. cbv beta zeta in X. rewrite V1, V2 in X. destruct X as ((v & Hv & Hle) & _). exists v. split; [|exact Hv].
  eapply Rle_trans; [exact Hle|]. replace (INR 120) with 120 by (rewrite INR_IZR_INZ; reflexivity). lra.
Qed.
Example C90_cost_case : Un_cv (fun k => mean [1; 2; 3]%Z (fun _ => / 3) 2 (fun seeds => mean outs p (3 * k)
  (fun l => match run4 2 0 0 k seeds l with Ok j => match estimate ind j with Some x => (x - 1 / 3) ^ 2 | None => 0 end | Err _ => 0 end))) (4 / 27).
Proof.
  assert (V1 : expect outs post (fun a => ind [a]) = 1 / 3) by (rewrite expect_post; unfold ind; cbn; lra).
  assert (V2 : variance outs post (fun a => ind [a]) = 2 / 9) by (unfold variance; rewrite V1, expect_post; unfold ind; cbn; lra).
  pose proof (C90_cost nat nat nat unit (fun _ _ => true) outs p prior sim dist PInf (Fin 2) [] (fun a => [a]) Some (fun a l => ex_intro _ (a :: l) (conj eq_refl eq_refl)) law eq_refl some 2 0 0
    ltac:(split; apply Z.leb_le; reflexivity) (or_introl eq_refl) ind 1 ltac:(intros t; unfold ind; destruct (_ =? _)%nat; [rewrite Rabs_R1|rewrite Rabs_R0]; lra)) as X. cbv beta zeta in X. rewrite V1, V2 in X.
  unfold alike in X. change (randint_values (square_range 2)) with [1; 2; 3]%Z in X. replace (INR (length [1; 2; 3]%Z)) with 3 in X by (cbn; lra). eapply cv_limit; [|exact X]. cbn [INR]. lra.
Qed.
End Five4.
