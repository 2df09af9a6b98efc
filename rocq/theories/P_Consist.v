(** C86: averages over the samples of rejection ABC approach the expectation under the ABC posterior. *)
From Coq Require Import Reals Lra Lia Qreals.
From Verif Require Import M_Base M_Num L_Num M_Journal M_Rejection S_Rejection L_Rejection M_PMCABC M_XReal M_Stats L_PMC S_Stats L_Stats L_Distance L_PosDef S_Law P_Law L_Law L_Gen L_Series S_Consist L_LLN L_Workers.
Open Scope R_scope.

Notation upto := P_Law.upto.
Lemma mapR_length {U V} (f : U -> res V) l : forall ys, mapR f l = Ok ys -> length ys = length l.
Proof. induction l as [|x l IH]; intros ys H; cbn [mapR] in H; [injection H as <-; reflexivity|]. destruct (f x); [|discriminate]. destruct (mapR f l) as [zs|]; [|discriminate]. injection H as <-. cbn. rewrite (IH zs eq_refl). reflexivity. Qed.
Lemma total_ones n : total (map Q2R (repeat 1%Q n)) = INR n.
Proof. induction n as [|n IH]; [reflexivity|]. cbn [repeat map]. rewrite total_cons, IH, S_INR, RMicromega.Q2R_1. ring. Qed.
Lemma weighted_ones {X} (f : X -> R) rows : weighted f rows (map Q2R (repeat 1%Q (length rows))) = average (map f rows).
Proof.
  unfold weighted, average. rewrite total_ones, map_length. f_equal. induction rows as [|x rows IH]; [reflexivity|]. cbn [length repeat map combine]. rewrite !total_cons, IH. cbn [fst snd]. rewrite RMicromega.Q2R_1. ring.
Qed.
Section Rejection.
Variables A Y E Name : Type.
Variable neqb : Name -> Name -> bool.
Variable outs : list A.
Variable p : A -> R.
Variable prior : list A -> list A * list E.
Variable sim : list E -> list A -> list A * option Y.
Variable dist : Y -> num.
Variables dist_max eps : num.
Variable cols : list (Name * (list E -> E)).
(** the parameters and the data of an attempt are given by one draw *)
Variable th : A -> list E.
Variable y : A -> option Y.
Hypothesis one_draw : forall a l, exists r, prior (a :: l) = (r, th a) /\ sim (th a) r = (l, y a).
Hypothesis law : Law outs p.
Hypothesis enters : nlt eps dist_max = true.
Notation accepted := (accepted A Y dist dist_max eps y).
Notation ok := (chance outs p accepted).
Hypothesis some : 0 < ok.
Notation sp_loop := (sp_loop (list A) Y E prior sim dist dist_max).
Notation sample_parameter := (sample_parameter (list A) Y E prior sim dist dist_max).
(** the ABC posterior: the law of the draws, given that the simulation is within the threshold *)
Definition posterior (a : A) : R := (if accepted a then p a else 0) / ok.

Lemma posterior_law : Law outs posterior.
Proof.
  destruct law as [H1 H2]. split.
  - intros a Ha. unfold posterior. apply Rmult_le_pos; [destruct (accepted a); [apply H1, Ha|lra]|apply Rlt_le, Rinv_0_lt_compat, some].
  - unfold posterior, Rdiv. rewrite (total_ext _ (fun a => / ok * (p a * (if accepted a then 1 else 0)))) by (intros a _; destruct (accepted a); ring). rewrite total_scale. change (total (map (fun a => p a * (if accepted a then 1 else 0)) outs)) with ok. field. lra.
Qed.
Lemma posterior_expect f : expect outs posterior f = expect outs p (fun a => if accepted a then f a else 0) / ok.
Proof. unfold expect, Rdiv. rewrite Rmult_comm, <- total_scale. apply total_ext. intros a _. unfold posterior. destruct (accepted a); field; lra. Qed.

Lemma loop_mean (g : list E -> R) k : forall t0 d0 c, nlt eps d0 = true ->
  mean outs p k (fun l => match sp_loop eps k l t0 d0 c with Ok (t, _, _) => g t | Err _ => 0 end) = upto k (fun i => (1 - ok) ^ i) * expect outs p (fun a => if accepted a then g (th a) else 0).
Proof.
  induction k as [|k IH]; intros t0 d0 c H0.
  - cbn [mean upto M_Rejection.sp_loop]. rewrite H0. ring.
  - cbn [mean]. rewrite upto_first. cbn [pow]. set (V := upto k (fun i => (1 - ok) ^ i)) in *. set (g0 := expect outs p (fun a => if accepted a then g (th a) else 0)) in *.
    rewrite upto_scale. fold V.
    rewrite (expect_ext _ _ _ _ (fun a => (if accepted a then g (th a) else 0) + V * g0 * (if negb (accepted a) then 1 else 0))).
    + rewrite expect_plus, expect_scale. fold (chance outs p (fun a => negb (accepted a))). rewrite (chance_neg _ _ _ _ law). fold g0. change (upto k (pow (1 - ok))) with V. ring.
    + intros a _. rewrite (mean_ext _ _ _ k _ (fun l => match sp_loop eps k l (Some (th a)) (distance_of A Y dist dist_max y a) (S c) with Ok (t, _, _) => g t | Err _ => 0 end)).
      2:{ intros l _. cbn [M_Rejection.sp_loop]. rewrite H0, (attempt_draw A Y E prior sim dist dist_max th y one_draw). reflexivity. }
      unfold P_Law.accepted. destruct (nlt eps (distance_of A Y dist dist_max y a)) eqn:Ea; cbn [negb].
      * rewrite (IH _ _ _ Ea). ring.
      * rewrite (mean_ext _ _ _ k _ (fun _ => g (th a))); [rewrite (mean_const _ outs p law); ring|]. intros l _. destruct k; cbn [M_Rejection.sp_loop]; rewrite Ea; reflexivity.
Qed.
Lemma upto_cv : Un_cv (fun k => upto k (fun i => (1 - ok) ^ i)) (/ ok).
Proof.
  apply (cv_ext (fun k => / ok * (1 - (1 - ok) ^ k))).
  - intros k. pose proof (upto_pow (1 - ok) k) as X. replace (1 - (1 - ok)) with ok in X by ring. rewrite <- X. field. lra.
  - replace (/ ok) with (/ ok * (1 - 0)) at 1 by ring. apply CV_mult; [apply cv_const|]. apply CV_minus; [apply cv_const|]. pose proof (chance_range _ outs p accepted law).
    intros e He. destruct (pow_lt_1_zero (1 - ok) ltac:(rewrite Rabs_right; lra) e He) as (n0 & Hn). exists n0. intros n Hn0. unfold R_dist. rewrite Rminus_0_r. apply Hn. exact Hn0.
Qed.
(** one worker *)
Definition worker (k : nat) (l : list A) (c : unit) : res (list E * unit) := match sample_parameter eps k l with Ok (t, _, _) => Ok (t, c) | Err e => Err e end.
Lemma worker_law c : Worker A outs p (list E) unit A outs posterior (fun a => (th a, tt)) worker c.
Proof.
  intros G G' Bd Hb Hc. rewrite posterior_expect. unfold Rdiv. rewrite Rmult_comm.
  apply (cv_ext (fun k => upto k (fun i => (1 - ok) ^ i) * expect outs p (fun a => if accepted a then G k (th a, tt) else 0))).
  - intros k. rewrite <- (loop_mean (fun t => G k (t, tt)) k None dist_max 0 enters). apply mean_ext. intros l _. unfold worker, M_Rejection.sample_parameter. destruct c. destruct (sp_loop eps k l None dist_max 0) as [[[t d] n]|]; reflexivity.
  - apply CV_mult; [apply upto_cv|]. apply (expect_cv _ outs p (fun k a => if accepted a then G k (th a, tt) else 0)). intros a Ha. destruct (accepted a); [apply Hc, Ha|apply cv_const].
Qed.

(** the journal of a run whose worker i has its own k draws *)
Definition run (n full counter0 k : nat) (l : list A) : res (jrn E Name) :=
  M_Rejection.sample (list A) Y E Name neqb prior sim (fun z => chunk k (Z.to_nat z) l) dist dist_max cols (Some n) None (Some eps) None full (map Z.of_nat (seq 0 n)) k counter0.
Lemma mapR_T {U V W} (f : U -> res V) (h : V -> W) l : match mapR f l with Ok ys => Ok (map h ys, tt) | Err e => Err e end = mapT (fun x c => match f x with Ok v => Ok (h v, c) | Err e => Err e end) l tt.
Proof. induction l as [|x l IH]; [reflexivity|]. cbn [mapR mapT]. destruct (f x) as [v|]; [|reflexivity]. rewrite <- IH. destruct (mapR f l); reflexivity. Qed.
Lemma run_value n full c0 k l (F : option R -> R) (f : list E -> R) : (2 <= Z.of_nat n <= 46340)%Z -> full = 0%nat \/ full = 1%nat ->
  match run n full c0 k l with Ok j => F (estimate f j) | Err _ => 0 end = match mapT (fun i c => worker k (chunk k i l) c) (seq 0 n) tt with Ok (ys, _) => F (Some (average (map f ys))) | Err _ => 0 end.
Proof.
  intros Hn Hf. unfold run, M_Rejection.sample. cbn [negb Bool.eqb andb orb]. assert (Hnew : exists j0, new (Name := Name) (E := E) (S := unit) (C := unit) (D := list num) full = Ok j0) by (unfold new; destruct Hf as [-> | ->]; eexists; reflexivity).
  destruct Hnew as (j0 & Hnew). rewrite Hnew. unfold sample_n_samples_epsilon. assert (Hsq : (4 <= Z.of_nat n * Z.of_nat n <= 46340 * 46340)%Z) by nia. destruct (Z.leb_spec (Z.of_nat n * Z.of_nat n) 1); [lia|]. destruct (Z.ltb_spec (2 ^ 31) (Z.of_nat n * Z.of_nat n)); [lia|]. cbn [orb].
  pose proof (mapR_T (fun seed => sample_parameter eps k (chunk k (Z.to_nat seed) l)) (fun r => fst (fst r)) (map Z.of_nat (seq 0 n))) as M. rewrite (mapT_map Z.of_nat) in M.
  rewrite (mapT_ext _ (fun i c => worker k (chunk k i l) c)) in M.
  2:{ intros i c _. rewrite Nat2Z.id. unfold worker. destruct (sample_parameter eps k (chunk k i l)) as [[[t d] m]|]; reflexivity. }
  rewrite <- M. destruct (mapR _ (map Z.of_nat (seq 0 n))) as [rs|] eqn:Em; [|reflexivity].
  match goal with |- F (estimate f (with_conf _ _ (adds _ _ [AddAcc ?rows; AddW _; AddEss _; AddDist ?ds; AddUser ?ks]) ?ns _ _)) = _ => destruct (read_back E Name neqb j0 rows n ds ks true full Hnew ns (Some n) true) as (R1 & R2 & _) end.
  unfold estimate. cbn [j_nsamples j_hasmodel with_conf] in *. rewrite R1, R2. cbn [ones]. f_equal. f_equal.
  assert (Hl : length (map (fun r => fst (fst r)) rs) = n) by (rewrite map_length; apply mapR_length in Em; rewrite map_length, seq_length in Em; exact Em). rewrite <- Hl. apply weighted_ones.
Qed.
(** C86 (rejection): as every worker gets more draws, the probability that RejectionABC returns a journal in which the weighted average of f is more than e away from the
    posterior expectation of f has a limit, which is at most the posterior variance of f divided by n e^2; the probability that it returns a journal tends to 1 *)
Theorem C86_rejection : forall n full counter0 (f : list E -> R) e, (2 <= Z.of_nat n <= 46340)%Z -> full = 0%nat \/ full = 1%nat -> 0 < e ->
  let m := expect outs posterior (fun a => f (th a)) in
  (exists v, Un_cv (fun k => prob outs p (n * k) (fun l => match run n full counter0 k l with Ok j => match estimate f j with Some x => far e x m | None => true end | Err _ => false end)) v
     /\ v <= variance outs posterior (fun a => f (th a)) / (INR n * e ^ 2)) /\
  Un_cv (fun k => prob outs p (n * k) (fun l => match run n full counter0 k l with Ok _ => true | Err _ => false end)) 1.
Proof.
  intros n full c0 f e Hn Hf He m. split.
  - pose (F := fun o : option R => if match o with Some x => far e x m | None => true end then 1 else 0). pose (H := fun ys : list (list E) => F (Some (average (map f ys)))).
    exists (prob outs posterior n (fun as_ => far e (average (map (fun a => f (th a)) as_)) m)). split; [|apply (average_law A outs posterior posterior_law); [lia|exact He]].
    rewrite (prob_mean A outs posterior). apply (cv_ext (fun k => all_workers A outs p (list E) unit worker H n k tt)).
    + intros k. rewrite (prob_mean A outs p). unfold all_workers. apply mean_ext. intros l _. unfold H. rewrite <- (run_value n full c0 k l F f Hn Hf). unfold F. destruct (run n full c0 k l) as [j|]; [destruct (estimate f j); reflexivity|reflexivity].
    + eapply cv_limit; [|apply (workers_law A outs p law (list E) unit A outs posterior (fun a => (th a, tt)) worker worker_law n H 1 tt)].
      * apply mean_ext. intros l _. unfold H, F. cbn [fst]. rewrite map_map. reflexivity.
      * intros ys. unfold H, F. destruct (far _ _ _); [rewrite Rabs_R1|rewrite Rabs_R0]; lra.
  - apply (cv_ext (fun k => all_workers A outs p (list E) unit worker (fun _ => 1) n k tt)).
    + intros k. rewrite (prob_mean A outs p). unfold all_workers. apply mean_ext. intros l _. rewrite <- (run_value n full c0 k l (fun _ => 1) f Hn Hf). destruct (run n full c0 k l); reflexivity.
    + eapply cv_limit; [|apply (workers_law A outs p law (list E) unit A outs posterior (fun a => (th a, tt)) worker worker_law n (fun _ => 1) 1 tt); intros; rewrite Rabs_R1; lra]. apply (mean_const _ outs posterior posterior_law).
Qed.
(** C86 (how many samples): with more than 4 Var(f) / (d e^2) samples, the journal's average is within e of the posterior expectation with probability more than 1 - d,
    as soon as every worker has enough draws *)
Theorem C86_enough : forall n full counter0 (f : list E -> R) e d, (2 <= Z.of_nat n <= 46340)%Z -> full = 0%nat \/ full = 1%nat -> 0 < e -> 0 < d ->
  4 * variance outs posterior (fun a => f (th a)) / (d * e ^ 2) < INR n -> exists k0, forall k, (k0 <= k)%nat ->
  prob outs p (n * k) (fun l => match run n full counter0 k l with Ok j => match estimate f j with Some x => negb (far e x (expect outs posterior (fun a => f (th a)))) | None => false end | Err _ => false end) > 1 - d.
Proof.
  intros n full c0 f e d Hr Hf He Hd HnR. set (m := expect outs posterior (fun a => f (th a))). set (V := variance outs posterior (fun a => f (th a))) in *. assert (E2 : 0 < e ^ 2) by (apply pow_lt, He).
  destruct (C86_rejection n full c0 f e Hr Hf He) as ((v & Hv & Hle) & H1). fold m V in Hv, Hle.
  assert (N0 : 0 < INR n) by (apply lt_0_INR; lia).
  assert (Hv4 : v <= d / 4).
  { eapply Rle_trans; [exact Hle|]. apply Rmult_le_reg_r with (INR n * e ^ 2); [apply Rmult_lt_0_compat; assumption|]. unfold Rdiv. rewrite Rmult_assoc, Rinv_l by (apply Rgt_not_eq, Rmult_lt_0_compat; assumption). rewrite Rmult_1_r.
    apply Rlt_le. apply Rmult_lt_compat_r with (r := d * e ^ 2 / 4) in HnR; [|apply Rdiv_lt_0_compat; [apply Rmult_lt_0_compat; assumption|lra]]. replace (4 * V / (d * e ^ 2) * (d * e ^ 2 / 4)) with V in HnR by (field; split; lra). lra. }
  destruct (Hv (d / 4)) as (k1 & K1); [lra|]. destruct (H1 (d / 4)) as (k2 & K2); [lra|]. exists (max k1 k2). intros k Hk. specialize (K1 k ltac:(lia)). specialize (K2 k ltac:(lia)). unfold R_dist in *.
  apply Rabs_def2 in K1, K2.
  match goal with |- prob _ _ _ ?F > _ => set (good := F) end. match type of K1 with prob _ _ _ ?F - _ < _ /\ _ => set (bad := F) in * end. match type of K2 with prob _ _ _ ?F - _ < _ /\ _ => set (fin := F) in * end.
  assert (X : prob outs p (n * k) fin <= prob outs p (n * k) good + prob outs p (n * k) bad).
  { eapply Rle_trans; [|apply (prob_or A outs p law)]. apply (prob_le A outs p law). intros l. unfold fin, good, bad. destruct (run n full c0 k l) as [j|]; [|discriminate]. destruct (estimate f j) as [x|]; [destruct (far e x m)|]; reflexivity. }
  lra.
Qed.
End Rejection.
Print Assumptions C86_rejection.
Print Assumptions C86_enough.

(** Case: a uniform prior on 0, ..., 4, the data are the parameter, and the threshold accepts those at most 2; the posterior mean is 1, the variance 2/3 *)
Module Five.
Definition outs : list nat := seq 0 5.
Definition p : nat -> R := fun _ => 1 / 5.
Definition prior (l : list nat) : list nat * list nat := (l, [hd 0%nat l]).
Definition sim (_ : list nat) (l : list nat) : list nat * option nat := match l with [] => ([], None) | a :: l' => (l', Some a) end.
Definition dist (a : nat) : num := Fin (inject_Z (Z.of_nat a)).
Definition f (row : list nat) : R := INR (hd 0%nat row).
Lemma law : Law outs p.
Proof. split; [intros; unfold p; lra|]. unfold outs, p. cbn [seq map]. unfold total. cbn [fold_right]. lra. Qed.
Lemma below a : (a < 5)%nat -> accepted nat nat dist PInf (Fin 2) Some a = (a <=? 2)%nat.
Proof. intros Ha. do 5 (destruct a as [|a]; [reflexivity|]). lia. Qed.
Lemma acc : chance outs p (accepted nat nat dist PInf (Fin 2) Some) = 3 / 5.
Proof. unfold chance. rewrite (expect_ext _ _ _ _ (fun a => if (a <=? 2)%nat then 1 else 0)) by (intros a Ha; apply in_seq in Ha; rewrite below by lia; reflexivity). unfold expect, outs, p, total. cbn [seq map Nat.leb fold_right]. lra. Qed.
Definition run := run nat nat nat unit (fun _ _ => true) prior sim dist PInf (Fin 2) [].
Notation post := (posterior nat nat outs p dist PInf (Fin 2) Some).
Lemma post_eq a : (a < 5)%nat -> post a = if (a <=? 2)%nat then 1 / 3 else 0.
Proof. intros Ha. unfold posterior. rewrite acc, below by exact Ha. unfold p. destruct (a <=? 2)%nat; lra. Qed.
Lemma expect_post g : expect outs post g = (g 0%nat + g 1%nat + g 2%nat) / 3.
Proof. unfold expect. rewrite (total_ext _ (fun a => (if (a <=? 2)%nat then 1 / 3 else 0) * g a)) by (intros a Ha; apply in_seq in Ha; rewrite post_eq by lia; reflexivity). unfold outs, total. cbn [seq map Nat.leb fold_right]. lra. Qed.
Lemma values : expect outs post (fun a => f [a]) = 1 /\ variance outs post (fun a => f [a]) = 2 / 3.
Proof. assert (E : expect outs post (fun a => f [a]) = 1) by (rewrite expect_post; unfold f; cbn; lra). split; [exact E|]. unfold variance. rewrite E, expect_post. unfold f. cbn. lra. Qed.
(** 120 samples: within 1/2 with probability more than 90 percent *)
Example C86_case : exists k0, forall k, (k0 <= k)%nat ->
  prob outs p (120 * k) (fun l => match run 120 0 0 k l with Ok j => match estimate f j with Some x => negb (far (1 / 2) x 1) | None => false end | Err _ => false end) > 1 - 1 / 10.
Proof.
  destruct values as [V1 V2].
  pose proof (C86_enough nat nat nat unit (fun _ _ => true) outs p prior sim dist PInf (Fin 2) [] (fun a => [a]) Some (fun a l => ex_intro _ (a :: l) (conj eq_refl eq_refl)) law eq_refl ltac:(rewrite acc; lra) 120 0 0 f (1 / 2) (1 / 10)) as X; cbv beta in X.
  rewrite V1, V2 in X. apply X; [split; apply Z.leb_le; reflexivity|left; reflexivity|lra|lra|]. replace (INR 120) with 120 by (rewrite INR_IZR_INZ; reflexivity). lra.
Qed.
End Five.
